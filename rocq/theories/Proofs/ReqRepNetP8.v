(** The joint model of a request and a reply socket: the readers of live connections are not at the end of their streams. *)
From Coq Require Import ZArith Permutation Sorting.Sorted.
From Verif Require Import Model.Base Model.Map Model.Framed Model.WireReqRep Model.WireAuth Model.Compression Model.Backoff Model.Handshake Model.ReqDriver Model.RepDriver Model.Net Model.ReqRepNet
  Spec.Wire Spec.Stream Spec.AuthSpec Spec.CompressSpec Spec.ReqSpec Spec.RepSpec Spec.NetSpec
  Proofs.BaseP Proofs.MapP Proofs.FramedP Proofs.FramedP2 Proofs.ReqRepP Proofs.AuthP Proofs.NetP
  Proofs.ReqDriverP Proofs.RepDriverP Proofs.RepDriverP2 Proofs.RepDriverP5 Proofs.RepDriverP6 Proofs.RepNetP Proofs.ReqRepNetP Proofs.ReqRepNetP2 Proofs.ReqRepNetP3 Proofs.ReqRepNetP4 Proofs.ReqRepNetP5 Proofs.ReqRepNetP6 Proofs.ReqRepNetP7.
From Verif Require Proofs.T_Req Proofs.T_Rep Proofs.T_Compress.
Local Open Scope N_scope.

(** ** A reader that has not met the end of its stream *)
Definition good (f : framed rr_state) : Prop :=
  fr_errored f = false /\ fr_eof f = false /\ (fr_readable f = false -> rr_decode (fr_codec f) (fr_buf f) = DNone (fr_codec f) (fr_buf f)).
Definition rr_stuck s b s' r : rr_decode s b = DNone s' r -> rr_decode s' r = DNone s' r := none_stuck rr_decode (fun _ => True) rr_w rr_incremental s b s' r I.

Lemma good_new : good (framed_new RRHeader).
Proof. repeat split. Qed.
Lemma poll_good input : forall f r f' rest, good f -> framed_poll rr_decode RRIo f input = (r, f', rest) ->
  match r with PItem _ | PPending => good f' | PFail _ => fr_errored f' = true | _ => True end.
Proof.
  induction input as [|i input IH]; intros f r f' rest (G1 & G2 & G3); rewrite framed_poll_unfold.
  - unfold framed_front. rewrite G1, G2. destruct (fr_readable f) eqn:Rd.
    + destruct (rr_decode (fr_codec f) (fr_buf f)) as [s b|m s b|e s b|] eqn:Dc; intros H; inversion H; subst; cbn; try exact I; try reflexivity; repeat split; cbn; intros; try discriminate. eapply rr_stuck; eauto.
    + intros H; inversion H; subst. repeat split; auto.
  - unfold framed_front. rewrite G1, G2.
    assert (K : forall g, good g -> fr_readable g = false ->
      match i with
      | IoData [] => if fr_eof g then (PEnd, g, input) else framed_poll rr_decode RRIo (mkFramed (fr_codec g) (fr_buf g) true true (fr_errored g)) input
      | IoData (x :: c) => framed_poll rr_decode RRIo (mkFramed (fr_codec g) (fr_buf g ++ x :: c) true false (fr_errored g)) input
      | IoPending => (PPending, g, input)
      | IoErr => (PFail RRIo, mkFramed (fr_codec g) (fr_buf g) (fr_readable g) (fr_eof g) true, input)
      end = (r, f', rest) -> match r with PItem _ | PPending => good f' | PFail _ => fr_errored f' = true | _ => True end).
    { intros g (K1 & K2 & K3) Kr. specialize (K3 Kr). destruct i as [[|x c]| |].
      - rewrite K2. rewrite framed_poll_unfold. unfold framed_front. cbn [fr_errored fr_readable fr_eof fr_codec fr_buf]. rewrite K1, K3.
        destruct (fr_buf g); intros H; inversion H; subst; cbn; auto.
      - intros H. eapply IH; [|exact H]. repeat split; cbn; auto. discriminate.
      - intros H; inversion H; subst. repeat split; auto.
      - intros H; inversion H; subst. reflexivity. }
    destruct (fr_readable f) eqn:Rd.
    + destruct (rr_decode (fr_codec f) (fr_buf f)) as [s b|m s b|e s b|] eqn:Dc.
      * intros H. apply (K (mkFramed s b false false false)); [repeat split; cbn; intros; eapply rr_stuck; eauto|reflexivity|destruct i as [[|x c]| |]; exact H].
      * intros H; inversion H; subst. repeat split; cbn. discriminate.
      * intros H; inversion H; subst. reflexivity.
      * intros H; inversion H; subst. exact I.
    + intros H. apply (K f); [split; [|split]; auto|exact Rd|]. destruct i as [[|x c]| |]; exact H.
Qed.
Lemma errored_poll input f r f' rest : fr_errored f = true -> framed_poll rr_decode RRIo f input = (r, f', rest) -> r = PEnd.
Proof. intros E. rewrite framed_poll_unfold. unfold framed_front. rewrite E. intros H; inversion H; reflexivity. Qed.
Lemma end_poll_good input a r b : good (en_fr a) -> rr_poll input a = (r, b) -> match r with PItem _ | PPending => good (en_fr b) | PFail _ => fr_errored (en_fr b) = true | _ => True end.
Proof.
  unfold rr_poll, end_poll. destruct (framed_poll rr_decode RRIo (en_fr a) input) as [[r0 f] rest] eqn:P. intros G H; inversion H; subst. cbn [en_fr]. eapply poll_good; eauto.
Qed.

Section C.
Variables (o : ropts) (token : option bytes) (cco : option compressor)
          (max : option N) (min : N) (auth : option (bytes -> bool)) (sco : option compressor) (D : decompressors).
Hypothesis TOK : forall t, token = Some t -> blen t < 2 ^ 32.
Notation YI := (YI o token cco max min auth sco D).
Notation LOK := (link_ok token auth).
Notation run := (y_run o token cco max min auth sco D).
Notation step := (y_step o token cco max min auth sco D).
Notation serve := (y_serve max min auth sco D).
Notation act := (rp_act max min auth sco D).

Definition CR (y : sys) : Prop := forall l k, rd_done (sy_c y) = false -> sy_cur y = Some l -> mget l (sy_links y) = Some k -> good (en_fr (lk_c k)).
Definition sfr (k : rlink) := en_fr (lk_s k).
Definition SR (y : sys) : Prop := forall cid l k, mget cid (sy_cids y) = Some l -> mget l (sy_links y) = Some k -> opn (sy_s y) cid ->
  good (sfr k) \/ fr_errored (sfr k) = true.

Lemma route_sfr cids ls x : same_view sfr ls (route cids ls x).
Proof using.
  clear. assert (K : forall cid f, (forall k, sfr (f k) = sfr k) ->
     same_view sfr ls match mget cid cids with Some l => match mget l ls with Some k => mset l (f k) ls | None => ls end | None => ls end).
  { intros cid f H. destruct (mget cid cids) as [l|]; [|apply same_view_refl]. destruct (mget l ls) as [k|] eqn:G; [|apply same_view_refl]. eapply same_view_set; eauto. }
  destruct x as [| | | | |cid m [|]| | | |cid w|cid a| | | | | | |]; cbn [route]; try apply same_view_refl; apply K; reflexivity.
Qed.
Lemma routes_sfr cids os : forall ls, same_view sfr ls (fold_left (route cids) os ls).
Proof using. clear. induction os as [|x os IH]; intros ls; cbn [fold_left]; [apply same_view_refl|]. eapply same_view_trans; [apply route_sfr|apply IH]. Qed.

Lemma serve_cur ev y : sy_cur (serve ev y) = sy_cur y /\ sy_cids (serve ev y) = sy_cids y.
Proof using. clear. unfold y_serve. destruct (act (sy_s y) ev). split; reflexivity. Qed.
Lemma server_cur y ev : match ev with YReq _ _ | YDropReq | YConnected _ | YClient _ _ _ _ => False | _ => True end -> sy_cur (step y ev) = sy_cur y.
Proof using.
  clear TOK. destruct ev as [c p| |ok|e f tio nio|from|k r|k i b|a e i| |rid x|rid|]; intros []; cbn [y_step]; try apply serve_cur.
  - unfold y_accept. destruct from as [l|]; [|apply serve_cur]. destruct (smem l (sy_backlog y)); [|auto]. apply (serve_cur VAccept y).
  - unfold y_auth. destruct (nth_error _ _) as [[cid addr]|]; [|auto]. destruct auth as [a|] eqn:Au; [|auto]. rewrite <- Au. destruct (link_of cid y) as [[l lk]|] eqn:Lk; [|apply serve_cur].
    destruct (pipe_offers i _); [|auto]. destruct (auth_server a b i) as [[[id| | |] w] rest]; first [apply serve_cur | match goal with |- sy_cur (serve ?e ?z) = _ => exact (proj1 (serve_cur e z)) end].
  - unfold y_peer. destruct (mget a _) as [p|]; [|auto]. destruct (link_of _ y) as [[l lk]|] eqn:Lk; [|apply serve_cur].
    destruct (_ && _); [|apply serve_cur]. destruct (pipe_offers i _); [|auto]. destruct (rr_poll i (lk_s lk)). match goal with |- sy_cur (serve ?e ?z) = _ => exact (proj1 (serve_cur e z)) end.
Qed.

(** The server's readers, when the links' readers stay as they are. *)
Lemma serve_SR ev y y1 : YI y -> SR y -> sy_s y1 = sy_s y -> sy_cids y1 = sy_cids y -> same_view sfr (sy_links y) (sy_links y1) -> SR (serve ev y1).
Proof using.
  clear TOK. intros YY H Es Ec V cid l k Hc G Op. destruct (serve_cur ev y1) as [_ Ec']. rewrite Ec', Ec in Hc.
  unfold y_serve in G, Op. rewrite Es in G, Op. destruct (act (sy_s y) ev) as [s' os] eqn:A. cbn [sy_links sy_s] in G, Op.
  destruct (view_get _ _ _ _ _ (same_view_trans _ _ _ _ V (routes_sfr _ os _)) G) as (k0 & G0 & E). rewrite E.
  destruct (act_conns _ _ _ _ _ _ _ _ _ A) as (_ & A2 & _). destruct (A2 _ Op) as [Op'|[_ Pd]]; [eapply H; eauto|].
  destruct YY as (_ & _ & (_ & _ & _ & _ & _ & S6 & _)). destruct (S6 _ _ _ Hc G0) as (_ & _ & F & _). left. unfold sfr. destruct (fresh_fields _ (F Pd)) as (-> & _). apply good_new.
Qed.

Lemma client_sfr y ev : match ev with YReq _ _ | YDropReq | YConnected _ | YClient _ _ _ _ => True | _ => False end -> YI y ->
  sy_s (step y ev) = sy_s y /\ sy_cids (step y ev) = sy_cids y /\ forall l k', mget l (sy_links (step y ev)) = Some k' -> (exists cid, mget cid (sy_cids y) = Some l) -> exists k, mget l (sy_links y) = Some k /\ sfr k' = sfr k.
Proof using.
  clear TOK. intros Hev YY. pose proof YY as ((C1 & C2 & _) & _ & (_ & _ & S3 & _)).
  assert (Triv : forall z, sy_s z = sy_s y -> sy_cids z = sy_cids y -> sy_links z = sy_links y -> sy_s z = sy_s y /\ sy_cids z = sy_cids y /\ forall l k', mget l (sy_links z) = Some k' -> (exists cid, mget cid (sy_cids y) = Some l) -> exists k, mget l (sy_links y) = Some k /\ sfr k' = sfr k).
  { intros z H1 H2 H3. rewrite H3. split; [exact H1|]. split; [exact H2|]. eauto. }
  assert (View : forall z, sy_s z = sy_s y -> sy_cids z = sy_cids y -> same_view sfr (sy_links y) (sy_links z) -> sy_s z = sy_s y /\ sy_cids z = sy_cids y /\ forall l k', mget l (sy_links z) = Some k' -> (exists cid, mget cid (sy_cids y) = Some l) -> exists k, mget l (sy_links y) = Some k /\ sfr k' = sfr k).
  { intros z H1 H2 H3. split; [exact H1|]. split; [exact H2|]. intros l k' G _. eapply view_get; eauto. }
  destruct ev as [c p| |ok|e f tio nio|from|k r|k i b|a e i| |rid x|rid|]; try contradiction; cbn [y_step].
  - unfold y_call. destruct (rd_step o cco D (sy_c y) _). apply Triv; reflexivity.
  - unfold y_call. destruct (rd_step o cco D (sy_c y) _). apply Triv; reflexivity.
  - unfold y_connected. destruct (_ && _); [|apply Triv; reflexivity]. destruct (sy_task y); [apply Triv; reflexivity|]. cbn [sy_s sy_cids sy_links]. split; [reflexivity|]. split; [reflexivity|].
    intros l k' G (cid & Hc). destruct (S3 _ _ Hc) as [_ (k0 & G0)]. pose proof (numbered_lt _ _ _ C2 G0). rewrite mget_set_ne in G by (unfold sy_fresh; lia). eauto.
  - unfold y_client. destruct (rd_done (sy_c y)); [apply Triv; reflexivity|]. destruct (y_task token f tio y) as [[tk l1]|] eqn:T; [|apply Triv; reflexivity].
    assert (V1 : same_view sfr (sy_links y) l1).
    { unfold y_task in T. destruct (rd_task (sy_c y)); [|inversion T; apply same_view_refl]. destruct (sy_task y) as [[l ok]|]; [|inversion T; apply same_view_refl].
      destruct (mget l (sy_links y)) as [k|] eqn:G; [|discriminate]. destruct (pipe_offers _ _); [|discriminate]. destruct (req_task _ _) as [[|]|]; inversion T; subst; try apply same_view_refl. eapply same_view_set; [exact G|reflexivity]. }
    set (cur := match tk with Some true => option_map fst (sy_task y) | _ => sy_cur y end).
    destruct (match rd_conn _ with RActive => _ | RInactive _ => _ end) as [[nx l2]|] eqn:Nx; [|apply Triv; reflexivity].
    assert (V2 : same_view sfr l1 l2).
    { destruct (rd_conn _); [|inversion Nx; apply same_view_refl]. unfold y_next in Nx. destruct cur as [l|]; [|inversion Nx; apply same_view_refl]. destruct (mget l l1) as [k|] eqn:G; [|discriminate]. destruct (pipe_offers _ _); [|discriminate].
      destruct (rr_poll nio (lk_c k)). inversion Nx; subst. eapply same_view_set; [exact G|reflexivity]. }
    destruct (rd_step o cco D (sy_c y) _) as [c' os]. apply View; [reflexivity|reflexivity|]. cbn [sy_links]. eapply same_view_trans; [exact V1|]. eapply same_view_trans; [exact V2|].
    unfold y_send. destruct cur as [l|]; [|apply same_view_refl]. destruct (mget l l2) as [k|] eqn:G; [|apply same_view_refl]. eapply same_view_set; [exact G|reflexivity].
Qed.

Lemma step_SR y ev : YI y -> SR y -> SR (step y ev).
Proof using.
  clear TOK. intros YY H.
  assert (Cl : match ev with YReq _ _ | YDropReq | YConnected _ | YClient _ _ _ _ => True | _ => False end -> SR (step y ev)).
  { intros Hev. destruct (client_sfr y ev Hev YY) as (E1 & E2 & E3). intros cid l k Hc G Op. rewrite E1 in Op. rewrite E2 in Hc. destruct (E3 _ _ G) as (k0 & G0 & E); [eauto|]. rewrite E. eapply H; eauto. }
  destruct ev as [c p| |ok|e f tio nio|from|k r|k i b|a e i| |rid x|rid|]; try (apply Cl; exact I); clear Cl; cbn [y_step];
    try (apply (serve_SR _ y y); auto using same_view_refl).
  - unfold y_accept. destruct from as [l0|]; [|apply (serve_SR _ y y); auto using same_view_refl]. destruct (smem l0 (sy_backlog y)); [|exact H].
    pose proof (serve_SR VAccept y y YY H eq_refl eq_refl (same_view_refl _ _)) as H1. destruct (serve_cur VAccept y) as [_ Ec]. intros cid l k Hc G Op. cbn [sy_cids sy_links sy_s] in Hc, G, Op.
    assert (Hc' : mget cid (sy_cids (serve VAccept y)) = Some l); [|eapply H1; eauto]. 
    destruct (_ =? _); [exact Hc|]. rewrite mget_set in Hc. destruct (eq_dec cid _) as [->|]; [exfalso|exact Hc].
    unfold y_serve in Op. destruct (act (sy_s y) VAccept) as [s' os] eqn:A. cbn [sy_s] in Op. destruct (act_conns _ _ _ _ _ _ _ _ _ A) as (_ & A2 & _).
    destruct YY as (_ & _ & (S1 & _)). destruct (run_waits max min auth sco D _ _ _ S1) as [((I1 & _) & _) _].
    destruct (A2 _ Op) as [(ad & p & Gp & Po & Pc)|[X _]]; [|discriminate]. pose proof (inv1_lt _ _ _ I1 (open_conn _ _ _ Gp Po)). lia.
  - unfold y_auth. destruct (nth_error _ _) as [[cid addr]|]; [|auto]. destruct auth as [a|] eqn:Au; [|auto]. rewrite <- Au in *. destruct (link_of cid y) as [[l lk]|] eqn:Lk; [|apply (serve_SR _ y y); auto using same_view_refl].
    apply link_of_get in Lk. destruct (pipe_offers i _); [|auto].
    destruct (auth_server a b i) as [[[id| | |] w] rest]; first [apply (serve_SR _ y y); auto using same_view_refl; fail | apply (serve_SR _ y); auto; cbn [set_link sy_links]; eapply same_view_set; [exact Lk|reflexivity]].
  - unfold y_peer. destruct (mget a _) as [p|] eqn:Gp; [|auto]. destruct (link_of _ y) as [[l lk]|] eqn:Lk; [|apply (serve_SR _ y y); auto using same_view_refl].
    destruct (pr_open p && wants_next min sco e (sy_s y) p) eqn:W; [|apply (serve_SR _ y y); auto using same_view_refl]. destruct (pipe_offers i _) eqn:Of; [|auto].
    apply andb_prop in W. destruct W as [Op W]. pose proof (link_of_get _ _ _ _ Lk) as G.
    assert (Hc : mget (pr_cid p) (sy_cids y) = Some l) by (unfold link_of in Lk; destruct (mget (pr_cid p) (sy_cids y)) as [l'|]; [destruct (mget l' (sy_links y)); inversion Lk; reflexivity|discriminate]).
    destruct (rr_poll i (lk_s lk)) as [r b] eqn:P.
    intros cid l' k Hc' Gk Ok. destruct (serve_cur (VPeer a (with_pnext e (next_of r))) (set_link l (mkLink (lk_c lk) b) y)) as [_ Ec]. rewrite Ec in Hc'. cbn [set_link sy_cids] in Hc'.
    unfold y_serve in Gk, Ok. cbn [set_link sy_links sy_s sy_cids] in Gk, Ok. destruct (act (sy_s y) (VPeer a (with_pnext e (next_of r)))) as [s' os] eqn:A. cbn [sy_links sy_s] in Gk, Ok.
    destruct (view_get _ _ _ _ _ (routes_sfr _ os _) Gk) as (k0 & G0 & E). rewrite E.
    destruct (act_conns _ _ _ _ _ _ _ _ _ A) as (_ & A2 & _).
    pose proof YY as (_ & _ & (S1 & S2 & _ & _ & _ & S6 & _)).
    destruct (eq_dec l' l) as [->|Ne].
    + rewrite mget_set_eq in G0. inversion G0; subst k0. unfold sfr at 1 2. cbn [lk_s].
      assert (cid = pr_cid p) by (eapply S2; eauto). subst cid.
      assert (H0 : good (en_fr (lk_s lk)) \/ fr_errored (en_fr (lk_s lk)) = true) by (eapply H; [exact Hc|exact G|exists a, p; auto]).
      assert (End : r <> PEnd).
      { intros ->. cbn [rp_act] in A. unfold rp_peer in A. rewrite Gp, Op in A. destruct (wants_ok min sco _ _ _ W (next_of PEnd)) as (p' & Ei). rewrite Ei in A. cbn [next_of] in A. inversion A; subst s' os.
        destruct (run_waits max min auth sco D _ _ _ S1) as [((I1 & _) & _) _]. destruct Ok as (b' & q & Gq & Oq & Cq). unfold rp_decr, rp_with_active in Gq; cbn [rp_peers] in Gq. rewrite mget_set in Gq. destruct (eq_dec b' a) as [->|Nb]; [inversion Gq; subst; discriminate|].
        apply Nb. eapply open_inj; eauto. }
      destruct H0 as [H0|H0].
      * pose proof (end_poll_good _ _ _ _ H0 P) as Q. destruct r as [m|er| | |]; [left; exact Q|right; exact Q|congruence|left; exact Q|]. exfalso.
        destruct YY as (_ & L & _). destruct (S6 _ _ _ Hc G) as (_ & _ & _ & B4). destruct (server_poll _ _ lk i _ _ (L _ _ G) (B4 ltac:(exists a, p; auto)) Of P) as (P1 & _). congruence.
      * exfalso. apply End. unfold rr_poll, end_poll in P. destruct (framed_poll rr_decode RRIo (en_fr (lk_s lk)) i) as [[r0 f] rest] eqn:Fp. inversion P; subst. eapply errored_poll; eauto.
    + rewrite mget_set_ne in G0 by exact Ne. eapply H; [exact Hc'|exact G0|]. destruct (A2 _ Ok) as [X|[X _]]; [exact X|]. cbn [subject] in X. rewrite Gp, Op in X. inversion X; subst. congruence.
Qed.

(** The client's reader. *)
Lemma step_CR y ev : YI y -> CR y -> CR (step y ev).
Proof using.
  clear TOK. intros YY H.
  assert (Sv : match ev with YReq _ _ | YDropReq | YConnected _ | YClient _ _ _ _ => False | _ => True end -> CR (step y ev)).
  { intros Hev l k Dn Cu G. destruct (server_view o token cco max min auth sco D y ev Hev) as [V E]. rewrite E in Dn. rewrite (server_cur y ev Hev) in Cu.
    destruct (view_get _ _ _ _ _ V G) as (k0 & G0 & Ek). apply noin_inv in Ek. destruct Ek as (-> & _). eapply H; eauto. }
  destruct ev as [c p| |ok|e f tio nio|from|k r|k i b|a e i| |rid x|rid|]; try (apply Sv; exact I); clear Sv; cbn [y_step].
  - unfold y_call. cbn [rd_step]. destruct (rd_done (sy_c y) || rd_dropped (sy_c y)) eqn:Dd; intros l k; cbn [sy_c sy_cur sy_links rd_done]; intros Dn Cu G; eapply H; eauto.
  - unfold y_call. cbn [rd_step]. intros l k; cbn [sy_c sy_cur sy_links rd_done]; intros Dn Cu G; eapply H; eauto.
  - unfold y_connected. destruct (_ && _); [|exact H]. destruct (sy_task y); [exact H|]. intros l k; cbn [sy_c sy_cur sy_links]; intros Dn Cu G.
    destruct YY as ((_ & C2 & _ & _ & C5 & _) & _). destruct (C5 _ Cu) as (_ & k0 & G0 & _). pose proof (numbered_lt _ _ _ C2 G0). rewrite mget_set_ne in G by (unfold sy_fresh; lia). eapply H; eauto.
  - unfold y_client. destruct (rd_done (sy_c y)) eqn:Dn; [exact H|]. destruct (y_task token f tio y) as [[tk l1]|] eqn:T; [|exact H].
    set (cur := match tk with Some true => option_map fst (sy_task y) | _ => sy_cur y end).
    set (e1 := with_task e tk).
    assert (G1 : forall l k, cur = Some l -> mget l l1 = Some k -> good (en_fr (lk_c k))).
    { unfold y_task in T. unfold CR in H. rewrite Dn in H. destruct (rd_task (sy_c y)); [|inversion T; subst; cbn in cur; intros; eapply H; eauto].
      destruct (sy_task y) as [[l0 ok0]|] eqn:Tk; [|destruct f; inversion T; subst; cbn in cur; intros; eapply H; eauto].
      destruct (mget l0 (sy_links y)) as [k0|] eqn:Gk; [|discriminate]. destruct (pipe_offers _ _); [|discriminate].
      destruct (req_task _ _) as [[|]|]; inversion T; subst; cbn in cur; try (intros; eapply H; eauto; fail).
      intros l k E G. inversion E; subst l. rewrite mget_set_eq in G. inversion G; subst k. cbn [lk_c end_on end_hs en_fr].
      destruct YY as ((_ & _ & _ & _ & _ & C6 & _) & L & _). destruct (C6 _ _ Tk) as (_ & _ & k1 & Gk1 & Of). rewrite Gk in Gk1. inversion Gk1; subst k1.
      destruct (L _ _ Gk) as (_ & _ & K & _). specialize (K Of). apply noin_eq in K. destruct K as (-> & _). apply good_new. }
    clearbody cur. clear T.
    destruct (rd_do_task e1 (rd_do_flush o e1 (sy_c y))) as [s2 o2] eqn:Dt. cbn [fst].
    destruct (rd_conn s2) as [|b] eqn:Cn.
    + destruct (y_next cur nio l1) as [[nx l2]|] eqn:Nx; [|exact H].
      assert (It : rd_step o cco D (sy_c y) (EIter (with_next e1 nx)) = match rd_do_active o cco D (with_next e1 nx) s2 with (s3, o3, _) => (s3, o2 ++ o3) end).
      { cbn [rd_step]. rewrite Dn. unfold rd_iter. replace (rd_do_task (with_next e1 nx) (rd_do_flush o (with_next e1 nx) (sy_c y))) with (s2, o2) by (rewrite <- Dt; reflexivity). rewrite Cn.
        destruct (rd_do_active o cco D (with_next e1 nx) s2) as [[s3 o3] c3]. reflexivity. }
      rewrite It. clear It. destruct (rd_do_active o cco D (with_next e1 nx) s2) as [[s3 o3] c3] eqn:Ac.
      intros l k; cbn [sy_c sy_cur sy_links]. intros Dn3 Cu G. destruct (rd_conn s3) eqn:C3; [|discriminate]. rewrite Cu in *.
      unfold y_next in Nx. destruct (mget l l1) as [k1|] eqn:Gk1; [|discriminate]. destruct (pipe_offers nio _) eqn:Of; [|discriminate].
      destruct (rr_poll nio (lk_c k1)) as [r c] eqn:P. inversion Nx; subst nx l2. clear Nx.
      cbn [y_send] in G. rewrite mget_set_eq in G. rewrite mget_set_eq in G. inversion G; subst k. cbn [link_c_send lk_c end_send en_fr].
      pose proof (end_poll_good _ _ _ _ (G1 _ _ eq_refl Gk1) P) as Q.
      unfold rd_do_active in Ac. cbn [e_next with_next] in Ac. destruct r as [m|er| | |]; cbn [next_of] in Ac; try exact Q.
      * inversion Ac; subst. discriminate.
      * destruct (rd_finish s2) as [sf of] eqn:Fn. unfold rd_finish in Fn. inversion Fn; subst. inversion Ac; subst. discriminate.
      * inversion Ac; subst. discriminate.
    + assert (It : exists s3 o3, rd_step o cco D (sy_c y) (EIter (with_next e1 NxPending)) = (s3, o2 ++ o3) /\ (exists b', rd_conn s3 = RInactive b')).
      { cbn [rd_step]. rewrite Dn. unfold rd_iter. replace (rd_do_task (with_next e1 NxPending) (rd_do_flush o (with_next e1 NxPending) (sy_c y))) with (s2, o2) by (rewrite <- Dt; reflexivity). rewrite Cn.
        destruct (rd_do_inactive (with_next e1 NxPending) b s2) as [[s3 o3] c3] eqn:Ia. exists s3, o3. split; [reflexivity|]. eapply inactive_quiet; eauto. }
      destruct It as (s3 & o3 & It & b' & C3). rewrite It. intros l k; cbn [sy_c sy_cur sy_links]. rewrite C3. discriminate.
Qed.

Theorem run_readers evs : CR (run evs) /\ SR (run evs).
Proof using TOK.
  induction evs as [|ev evs IH] using rev_ind.
  - split; [intros l k _ X; discriminate|intros cid l k X; discriminate].
  - unfold y_run. rewrite fold_left_app. cbn [fold_left]. fold (run evs). pose proof (y_inv o token cco max min auth sco D TOK evs) as Y. destruct IH. split; [apply step_CR|apply step_SR]; assumption.
Qed.
End C.
