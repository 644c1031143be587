(** The joint model of a subscriber and a publisher socket: the steps of the publisher keep the invariant; every run has it. *)
From Coq Require Import ZArith Permutation.
From Verif Require Import Model.Base Model.Map Model.Framed Model.WirePubSub Model.WireAuth Model.Compression Model.Handshake Model.JoinMap Model.Trie Model.PubDriver Model.SubDriver Model.Net Model.PubSubNet
  Spec.Wire Spec.Stream Spec.AuthSpec Spec.PubSpec Spec.SubSpec Spec.NetSpec2
  Proofs.BaseP Proofs.MapP Proofs.FramedP2 Proofs.PubSubP Proofs.AuthP Proofs.HandshakeP Proofs.HandshakeP2 Proofs.NetP
  Proofs.PubSubNetP Proofs.PubSubNetP2 Proofs.PubNetP Proofs.SubNetP Proofs.PubDriverP3 Proofs.PubSubNetP3 Proofs.PubSubNetP4.
From Verif Require Proofs.ReqRepNetP4 Proofs.RepNetP Proofs.RepDriverP3.
Local Open Scope N_scope.

Section Z.
Variables (token : option bytes) (ingress initial : N) (D : decompressors)
          (max : option N) (buf min : N) (auth : option (bytes -> bool)) (co : option compressor).
Hypothesis TOK : forall t, token = Some t -> blen t < 2 ^ 32.
Notation LOK := (link_ok token auth).
Notation act := (pb_act max buf min auth co).
Notation zpub := (z_pub max buf min auth co).
Notation ZI := (ZI token ingress initial D max buf min auth co).
Notation CI := (CI token ingress initial D).
Notation LI := (LI token auth).
Notation SI := (SI max buf min auth co).
Notation s_eff := (geff s_tgt).

Lemma s_none cid os : (forall x, In x os -> ~ mentions cid x) -> forall k, fold_left (s_eff cid) os k = k.
Proof using. clear TOK. intros H. apply geff_none. intros x c f Hx T ->. apply s_tgt_ment in T. apply (H x Hx), T. Qed.

Lemma serve_core c cevs clog ccids tasks ls s sevs slog backlog cids ev ls1 s' os :
  CI c cevs clog ccids tasks ls -> LI ls -> SI s sevs slog backlog cids ls ->
  ev <> WAccept -> act s ev = (s', os) -> same_view cview ls ls1 ->
  (forall l, (forall cid, mget cid cids = Some l -> subject s ev <> Some cid) -> mget l ls1 = mget l ls) ->
  (forall cid l k k1, subject s ev = Some cid -> mget cid cids = Some l -> mget l ls = Some k -> mget l ls1 = Some k1 ->
     let k2 := fold_left (s_eff cid) os k1 in
     LOK k2 /\ en_sent (lk_s k2) = en_sent (lk_s k) ++ tak_on cid os /\ en_items (lk_s k2) = en_items (lk_s k) ++ ctl_on cid os /\
     (pend s' cid -> fresh_s k2) /\ (opn s' cid -> en_on (lk_s k2) = true)) ->
  let ls' := fold_left (s_route cids) os ls1 in
  CI c cevs clog ccids tasks ls' /\ LI ls' /\ SI s' (sevs ++ [ev]) (slog ++ os) backlog cids ls'.
Proof using.
  clear TOK. intros C L S Na A V Ot Sub ls'. pose proof S as (S1 & S2 & S3 & S4 & S5 & S6 & S7).
  assert (V' : same_view cview ls ls') by (eapply same_view_trans; [exact V|apply s_view]).
  destruct (act_conns _ _ _ _ _ _ _ _ _ A) as (A1 & A2 & A3).
  assert (Nc : pb_next_cid s' = pb_next_cid s) by (destruct A3 as [A3|[A3 _]]; [exact A3|congruence]).
  assert (Ex : forall l, (exists k, mget l ls = Some k) -> exists k, mget l ls' = Some k).
  { intros l (k & H). destruct (view_get' _ _ _ _ _ V' H) as (k' & H' & _). eauto. }
  assert (Pd : forall x, pend s' x -> pend s x) by (intros x Hx; destruct (A1 x Hx) as [H|[H _]]; [exact H|congruence]).
  assert (RG : forall l, (forall cid, mget cid cids = Some l -> mget l ls' = option_map (fun k => fold_left (s_eff cid) os k) (mget l ls1)) /\ ((forall cid, mget cid cids <> Some l) -> mget l ls' = mget l ls1)).
  { intros l. unfold ls'. rewrite s_routes. apply grts_get. exact S2. }
  assert (U : forall l, (forall cid, mget cid cids <> Some l) -> mget l ls' = mget l ls).
  { intros l Hn. destruct (RG l) as [_ R2]. rewrite (R2 Hn). apply Ot. intros cid H. exfalso. eapply Hn; eauto. }
  assert (O : forall cid l, mget cid cids = Some l -> subject s ev <> Some cid -> mget l ls' = mget l ls /\ tak_on cid os = [] /\ ctl_on cid os = []).
  { intros cid l Hc Ns. assert (Nm : forall x, In x os -> ~ mentions cid x) by (intros x Hx M; apply Ns; eapply act_mentions; eauto).
    split; [|apply on_none; exact Nm]. destruct (RG l) as [R1 _]. rewrite (R1 _ Hc).
    rewrite Ot by (intros cid' Hc'; rewrite (S2 _ _ _ Hc' Hc); exact Ns). destruct (mget l ls) as [k|]; [|reflexivity]. cbn [option_map]. rewrite s_none by exact Nm. reflexivity. }
  assert (Su : forall cid l k', mget cid cids = Some l -> subject s ev = Some cid -> mget l ls' = Some k' -> exists k k1, mget l ls = Some k /\ mget l ls1 = Some k1 /\ k' = fold_left (s_eff cid) os k1).
  { intros cid l k' Hc Hs G. destruct (RG l) as [R1 _]. rewrite (R1 _ Hc) in G. destruct (mget l ls1) as [k1|] eqn:G1; [|discriminate]. cbn [option_map] in G. inversion G.
    destruct (view_get _ _ _ _ _ V G1) as (k & Gk & _). eauto. }
  assert (Sd : forall cid, subject s ev = Some cid \/ subject s ev <> Some cid).
  { intros cid. destruct (subject s ev) as [c'|]; [|right; discriminate]. destruct (N.eq_dec c' cid) as [->|]; [left; reflexivity|right; congruence]. }
  split; [eapply CI_view; eauto|]. split.
  - intros l k' G. destruct (mapped_dec cids l) as [(cid & Hc)|Hn].
    + destruct (Sd cid) as [Hs|Hs].
      * destruct (Su _ _ _ Hc Hs G) as (k & k1 & G0 & G1 & ->). apply (Sub _ _ _ _ Hs Hc G0 G1).
      * destruct (O _ _ Hc Hs) as (E & _). rewrite E in G. eapply L; eauto.
    + rewrite (U _ Hn) in G. eapply L; eauto.
  - split; [rewrite pub_snoc, S1, A; reflexivity|]. split; [exact S2|].
    split; [intros cid l H; rewrite Nc; destruct (S3 cid l H) as [X Y]; auto|]. split; [intros l H; destruct (S4 l H) as [X Y]; auto|].
    split; [intros l k G Hn; rewrite (U _ Hn) in G; eapply S5; eauto|]. split.
    + intros cid l k' Hc G. rewrite tak_on_app, ctl_on_app. destruct (Sd cid) as [Hs|Hs].
      * destruct (Su _ _ _ Hc Hs G) as (k & k1 & G0 & G1 & ->). destruct (Sub _ _ _ _ Hs Hc G0 G1) as (_ & E1 & E2 & E3 & E4). destruct (S6 _ _ _ Hc G0) as (B1 & B2 & _ & _).
        rewrite E1, E2, B1, B2. auto.
      * destruct (O _ _ Hc Hs) as (E & E1 & E2). rewrite E in G. destruct (S6 _ _ _ Hc G) as (B1 & B2 & B3 & B4). rewrite E1, E2, !app_nil_r. split; [exact B1|]. split; [exact B2|]. split; [auto|].
        intros Op. destruct (A2 _ Op) as [Op'|[Hs' _]]; [apply B4; exact Op'|contradiction].
    + intros x Hx. rewrite Nc in Hx. rewrite tak_on_app, ctl_on_app. destruct (S7 x Hx) as [-> ->]. cbn [app].
      apply on_none. intros z Hz M. pose proof (act_mentions _ _ _ _ _ _ _ _ _ _ _ A Hz M) as Hs.
      pose proof (run_inv1 _ _ _ _ _ _ _ _ S1) as I1.
      assert (Cx : In x (qconns s)).
      { unfold qconns. rewrite !in_app_iff. destruct ev as [a e|k i b|k r| |t p|t p|]; cbn [subject] in Hs; try discriminate.
        - destruct (mget a (pb_sess s)) as [p|] eqn:G; [|discriminate]. inversion Hs; subst. right; right. apply mget_keys. congruence.
        - right; left. apply nth_error_In in Hs. exact Hs.
        - left. apply nth_error_In in Hs. exact Hs. }
      assert (x < pb_next_cid s); [|lia]. apply (i1_next _ _ I1). eapply Permutation_in; [symmetry; apply (i1_perm _ _ I1)|]. apply in_or_app; left; exact Cx.
Qed.

Lemma serve_quiet ev z : ZI z -> ev <> WAccept -> (forall cid l, subject (z_s z) ev = Some cid -> mget cid (z_scids z) <> Some l) -> ZI (zpub ev z).
Proof using.
  clear TOK. intros (C & L & S) Na Ns. unfold z_pub. destruct (act (z_s z) ev) as [s' os] eqn:A.
  destruct (serve_core _ _ _ _ _ _ _ _ _ _ _ ev (z_links z) s' os C L S Na A (same_view_refl _ _)) as (H1 & H2 & H3).
  - reflexivity.
  - intros cid l k k1 Hs Hc. exfalso. eapply Ns; eauto.
  - split; [exact H1|]. split; [exact H2|exact H3].
Qed.
Lemma app_inv ev z : match ev with WPublish _ _ | WTryPublish _ _ | WClose => True | _ => False end -> ZI z -> ZI (zpub ev z).
Proof using. clear TOK. intros H Y. apply serve_quiet; [exact Y|destruct ev; try contradiction; discriminate|]. destruct ev; try contradiction; discriminate. Qed.

(** ** The listener *)
Lemma accept_inv from z : ZI z -> ZI (z_accept max buf min auth co from z).
Proof using.
  clear TOK. intros (C & L & S). pose proof S as (S1 & S2 & S3 & S4 & S5 & S6 & S7).
  assert (Nm : forall s' os, act (z_s z) WAccept = (s', os) ->
    (forall ls, fold_left (s_route (z_scids z)) os ls = ls) /\ (forall x, tak_on x os = [] /\ ctl_on x os = []) /\ (forall x, opn s' x <-> opn (z_s z) x) /\
    ((s' = z_s z) \/ (pb_next_cid s' = pb_next_cid (z_s z) + 1 /\ forall x, pend s' x -> pend (z_s z) x \/ x = pb_next_cid (z_s z)))).
  { intros s' os A. cbn [pb_act] in A. unfold pb_accept in A. destruct (match max with Some m => _ | None => _ end); inversion A; subst; (split; [reflexivity|]; split; [intros; split; reflexivity|]; split; [intros; reflexivity|]); [left; reflexivity|right].
    split; [reflexivity|]. intros x [Hx|Hx]; [|left; right; exact Hx]. cbn in Hx. apply in_app_or in Hx. destruct Hx as [Hx|[<-|[]]]; [left; left; exact Hx|right; reflexivity]. }
  destruct (act (z_s z) WAccept) as [s' os] eqn:A. destruct (Nm _ _ eq_refl) as (N1 & N2 & N3 & N4). clear Nm.
  assert (R : pb_run max buf min auth co pb_init (z_sevs z ++ [WAccept]) = (s', z_slog z ++ os)) by (rewrite pub_snoc, S1, A; reflexivity).
  assert (Tk : forall x, tak_on x (z_slog z ++ os) = tak_on x (z_slog z) /\ ctl_on x (z_slog z ++ os) = ctl_on x (z_slog z)).
  { intros x. destruct (N2 x) as [E1 E2]. rewrite tak_on_app, ctl_on_app, E1, E2, !app_nil_r. auto. }
  assert (Le : pb_next_cid (z_s z) <= pb_next_cid s') by (destruct N4 as [->|[-> _]]; lia).
  assert (Q : forall bl, (forall l, In l bl -> In l (z_backlog z)) -> (forall x, pend s' x -> pend (z_s z) x \/ pb_next_cid (z_s z) <= x) -> SI s' (z_sevs z ++ [WAccept]) (z_slog z ++ os) bl (z_scids z) (z_links z)).
  { intros bl Hb Hp. split; [exact R|]. split; [exact S2|]. split; [intros cid l H; destruct (S3 _ _ H) as [X Y]; split; [lia|exact Y]|].
    split; [intros l Hl; apply S4, Hb, Hl|]. split; [exact S5|]. split.
    - intros cid l k Hc G. destruct (Tk cid) as [-> ->]. destruct (S6 _ _ _ Hc G) as (B1 & B2 & B3 & B4). split; [exact B1|]. split; [exact B2|]. split; [|intros Op; apply B4, N3, Op].
      intros P. destruct (Hp _ P) as [P'|P']; [apply B3; exact P'|]. destruct (S3 _ _ Hc). lia.
    - intros x Hx. destruct (Tk x) as [-> ->]. apply S7. lia. }
  assert (Q0 : forall x, pend s' x -> pend (z_s z) x \/ pb_next_cid (z_s z) <= x).
  { intros x Hx. destruct N4 as [->|[_ N4]]; [left; exact Hx|]. destruct (N4 _ Hx) as [H| ->]; [left; exact H|right; lia]. }
  assert (Sv : zpub WAccept z = mkZ (z_c z) s' (z_links z) (z_backlog z) (z_scids z) (z_ccids z) (z_tasks z) (z_cevs z) (z_clog z) (z_sevs z ++ [WAccept]) (z_slog z ++ os)).
  { unfold z_pub. rewrite A, N1. reflexivity. }
  unfold z_accept. destruct from as [l0|]; [|rewrite Sv; split; [exact C|]; split; [exact L|]; apply Q; auto].
  destruct (smem l0 (z_backlog z)) eqn:Mb; [|split; [|split]; assumption].
  assert (Hb : In l0 (z_backlog z)) by (apply smem_true; exact Mb).
  rewrite Sv. split; [exact C|]. split; [exact L|]. cbn [z_s z_sevs z_slog z_backlog z_scids z_links].
  destruct (pb_next_cid (z_s z) =? pb_next_cid s') eqn:Nc.
  - apply Q; [|exact Q0]. intros l Hl. apply in_remove in Hl. apply Hl.
  - apply N.eqb_neq in Nc. destruct N4 as [->|[N4 N5]]; [congruence|]. set (c0 := pb_next_cid (z_s z)) in *.
    assert (Gn : forall x, mget x (mset c0 l0 (z_scids z)) = if eq_dec x c0 then Some l0 else mget x (z_scids z)) by (intros; apply mget_set).
    destruct (S4 _ Hb) as [(k0 & G0) Un].
    split; [exact R|]. split.
    { intros c1 c2 l H1 H2. rewrite Gn in H1, H2. destruct (eq_dec c1 c0), (eq_dec c2 c0); [congruence| | |eapply S2; eauto]; exfalso; [apply (Un c2)|apply (Un c1)]; congruence. }
    split.
    { intros cid l H. rewrite Gn in H. destruct (eq_dec cid c0) as [->|]; [inversion H; subst; split; [lia|eauto]|]. destruct (S3 _ _ H) as [X Y]. split; [lia|exact Y]. }
    split.
    { intros l Hl. apply in_remove in Hl. destruct Hl as [Hl Ne]. destruct (S4 _ Hl) as [X Y]. split; [exact X|]. intros cid H. rewrite Gn in H. destruct (eq_dec cid c0); [congruence|eapply Y; eauto]. }
    split.
    { intros l k G Hn. eapply S5; [exact G|]. intros cid H. destruct (eq_dec cid c0) as [->|Ne]; [destruct (S3 _ _ H); lia|]. apply (Hn cid). rewrite Gn. destruct (eq_dec cid c0); [contradiction|exact H]. }
    split.
    + intros cid l k H G. destruct (Tk cid) as [-> ->]. rewrite Gn in H. destruct (eq_dec cid c0) as [->|].
      * inversion H; subst l. destruct (S7 c0 (N.le_refl _)) as [-> ->]. pose proof (S5 _ _ G Un) as Fr. pose proof (fresh_fields _ Fr) as (_ & _ & F3 & _ & F5 & _).
        split; [exact F5|]. split; [exact F3|]. split; [intros _; exact Fr|]. intros Op. apply N3 in Op. exfalso.
        pose proof (run_inv1 _ _ _ _ _ _ _ _ S1) as I1.
        assert (c0 < pb_next_cid (z_s z)); [|unfold c0 in *; lia]. apply (i1_next _ _ I1). eapply Permutation_in; [symmetry; apply (i1_perm _ _ I1)|]. apply in_or_app; left. unfold qconns. rewrite !in_app_iff. right; right.
        apply mget_keys. exact Op.
      * destruct (S6 _ _ _ H G) as (B1 & B2 & B3 & B4). split; [exact B1|]. split; [exact B2|]. split; [|intros Op; apply B4, N3, Op].
        intros P. destruct (N5 _ P) as [P'|P']; [apply B3; exact P'|contradiction].
    + intros x Hx. destruct (Tk x) as [-> ->]. apply S7. unfold c0 in *. lia.
Qed.

Lemma cut_not_in {A} (l : list A) k x : NoDup l -> nth_error l k = Some x -> ~ In x (firstn k l ++ skipn (Datatypes.S k) l).
Proof using. apply ReqRepNetP4.cut_not_in. Qed.
Lemma nd_l {A} (a b : list A) : NoDup (a ++ b) -> NoDup a.
Proof using. clear TOK. induction a as [|x a IH]; intros H; [constructor|]. inversion H; subst. constructor; [intros X; apply H2; apply in_or_app; left; exact X|auto]. Qed.
Lemma nd_r {A} (a b : list A) : NoDup (a ++ b) -> NoDup b.
Proof using. clear TOK. induction a as [|x a IH]; intros H; [exact H|]. inversion H; auto. Qed.
Lemma nd_dj {A} (a b : list A) x : NoDup (a ++ b) -> In x a -> In x b -> False.
Proof using. clear TOK. induction a as [|y a IH]; intros H Ha Hb; [contradiction|]. inversion H; subst. destruct Ha as [->|Ha]; [apply H2; apply in_or_app; right; exact Hb|eauto]. Qed.

Lemma live_nodup s sevs slog : pb_run max buf min auth co pb_init sevs = (s, slog) -> NoDup (pb_conns s ++ pb_auths s).
Proof using. clear TOK. intros R. pose proof (inv1_nodup_conns _ _ (run_inv1 _ _ _ _ _ _ _ _ R)) as Nd. apply nd_l in Nd. unfold qconns in Nd. rewrite app_assoc in Nd. apply nd_l in Nd. exact Nd. Qed.

(** ** The accept future of a connection ends *)
Lemma conn_inv k r z : ZI z -> ZI (zpub (WConn k r) z).
Proof using.
  clear TOK. intros ZZ. pose proof ZZ as (C & L & S). pose proof S as (S1 & S2 & S3 & S4 & S5 & S6 & S7). unfold z_pub. destruct (act (z_s z) (WConn k r)) as [s' os] eqn:A.
  destruct (serve_core _ _ _ _ _ _ _ _ _ _ _ (WConn k r) (z_links z) s' os C L S ltac:(discriminate) A (same_view_refl _ _)) as (H1 & H2 & H3); [reflexivity| |split; [exact H1|]; split; [exact H2|exact H3]].
  intros cid l lk k1 Hs Hc G G1 k2. rewrite G in G1. inversion G1; subst k1. clear G1. cbn [subject] in Hs.
  assert (Pn : pend (z_s z) cid) by (left; apply nth_error_In in Hs; exact Hs).
  destruct (S6 _ _ _ Hc G) as (B1 & B2 & B3 & B4). specialize (B3 Pn). pose proof (fresh_fields _ B3) as (F1 & F2 & F3 & F4 & F5 & F6).
  pose proof (live_nodup _ _ _ S1) as Nd1. cbn [pb_act] in A. unfold pb_conn in A. rewrite Hs in A.
  assert (Idle : k2 = lk -> tak_on cid os = [] -> ctl_on cid os = [] -> (opn s' cid -> opn (z_s z) cid) ->
    LOK k2 /\ en_sent (lk_s k2) = en_sent (lk_s lk) ++ tak_on cid os /\ en_items (lk_s k2) = en_items (lk_s lk) ++ ctl_on cid os /\ (pend s' cid -> fresh_s k2) /\ (opn s' cid -> en_on (lk_s k2) = true)).
  { intros -> -> -> Op. rewrite !app_nil_r. split; [eapply L; eauto|]. split; [reflexivity|]. split; [reflexivity|]. split; [intros _; exact B3|]. intros X. apply B4, Op, X. }
  destruct r as [[|]|].
  - destruct auth as [a|] eqn:Au.
    + inversion A; subst. apply Idle; try reflexivity. intros Op. exact Op.
    + unfold pb_open in A. cbn [pb_active pb_conns pb_auths pb_sess pb_hist pb_closed pb_next_cid pb_tx] in A. apply pair_equal_spec in A. destruct A as [Es Eo].
      assert (K : k2 = mkLink (lk_c lk) (end_on (lk_s lk))).
      { unfold k2. rewrite <- Eo. cbn [fold_left]. unfold geff. cbn [s_tgt]. destruct (eq_dec cid cid); congruence. }
      rewrite K, <- Eo. cbn [tak_on ctl_on flat_map]. rewrite !app_nil_r. split; [apply server_open; [eapply L; eauto|exact B3|reflexivity]|]. split; [reflexivity|]. split; [reflexivity|]. split; [|reflexivity].
      intros P. exfalso. rewrite <- Es in P. unfold pend in P. cbn [pb_conns pb_auths] in P.
      destruct P as [P|P].
      * apply nd_l in Nd1. eapply cut_not_in; eauto.
      * apply nth_error_In in Hs. eapply nd_dj; eauto.
  - inversion A; subst. apply Idle; try reflexivity. intros Op. exact Op.
  - inversion A; subst. apply Idle; try reflexivity. intros Op. exact Op.
Qed.

Lemma auth_inv k input ok z : ZI z -> ZI (z_auth max buf min auth co k input ok z).
Proof using TOK.
  intros YY. unfold z_auth. destruct (nth_error (pb_auths (z_s z)) k) as [cid|] eqn:Nt; [|exact YY].
  destruct auth as [a|] eqn:Au; [|exact YY]. rewrite <- Au in *.
  pose proof YY as (C & L & S). pose proof S as (S1 & S2 & S3 & S4 & S5 & S6 & S7).
  assert (Sub : subject (z_s z) (WAuth k input ok) = Some cid) by (cbn [subject]; exact Nt).
  unfold z_link_of. destruct (mget cid (z_scids z)) as [l|] eqn:Hc.
  2: { apply serve_quiet; [exact YY|discriminate|]. intros c l Hs. rewrite Sub in Hs. inversion Hs; subst. congruence. }
  destruct (mget l (z_links z)) as [lk|] eqn:G; [|destruct (S3 _ _ Hc) as [_ (k0 & G0)]; congruence].
  destruct (pipe_offers input (en_in (lk_s lk))) eqn:Of; [|exact YY].
  assert (Pn : pend (z_s z) cid) by (right; apply nth_error_In in Nt; exact Nt).
  destruct (S6 _ _ _ Hc G) as (B1 & B2 & B3 & B4). specialize (B3 Pn). pose proof (fresh_fields _ B3) as (F1 & F2 & F3 & F4 & F5 & F6).
  assert (Nop : ~ opn (z_s z) cid) by (intros X; rewrite (B4 X) in F6; discriminate).
  destruct (auth_server a ok input) as [[r w] rest] eqn:As. pose proof (ReqRepNetP4.auth_server_suffix _ _ _ _ _ _ As) as Sf.
  set (k1 := mkLink (lk_c lk) (end_hs input rest (lk_s lk))).
  assert (V : same_view cview (z_links z) (mset l k1 (z_links z))) by (eapply same_view_set; [exact G|reflexivity]).
  assert (Others : forall l', (forall c, mget c (z_scids z) = Some l' -> subject (z_s z) (WAuth k input ok) <> Some c) -> mget l' (mset l k1 (z_links z)) = mget l' (z_links z)).
  { intros l' H. apply mget_set_ne. intros ->. eapply H; eauto. }
  assert (Np : forall s', pb_conns s' = pb_conns (z_s z) -> pb_auths s' = firstn k (pb_auths (z_s z)) ++ skipn (Datatypes.S k) (pb_auths (z_s z)) -> ~ pend s' cid).
  { intros s' E1 E2 P. unfold pend in P. rewrite E1, E2 in P. pose proof (live_nodup _ _ _ S1) as Nd.
    destruct P as [P|P].
    - apply nth_error_In in Nt. eapply nd_dj; eauto.
    - apply nd_r in Nd. eapply cut_not_in; eauto. }
  assert (Fin : forall s' os, act (z_s z) (WAuth k input ok) = (s', os) ->
     (let k2 := fold_left (s_eff cid) os k1 in LOK k2 /\ en_sent (lk_s k2) = en_sent (lk_s lk) ++ tak_on cid os /\ en_items (lk_s k2) = en_items (lk_s lk) ++ ctl_on cid os /\
        (pend s' cid -> fresh_s k2) /\ (opn s' cid -> en_on (lk_s k2) = true)) -> ZI (zpub (WAuth k input ok) (z_set_link l k1 z))).
  { intros s' os A K. unfold z_pub, z_set_link. cbn [z_c z_s z_links z_backlog z_scids z_ccids z_tasks z_cevs z_clog z_sevs z_slog]. rewrite A.
    destruct (serve_core _ _ _ _ _ _ _ _ _ _ _ (WAuth k input ok) (mset l k1 (z_links z)) s' os C L S ltac:(discriminate) A V Others) as (H1 & H2 & H3); [|split; [exact H1|]; split; [exact H2|exact H3]].
    intros c l' k0 k0' Hs Hc' G' G1'. rewrite Sub in Hs. inversion Hs; subst c. rewrite Hc in Hc'. inversion Hc'; subst l'. rewrite G in G'. inversion G'; subst k0. rewrite mget_set_eq in G1'. inversion G1'; subst k0'. exact K. }
  assert (Lk : LOK lk) by (eapply L; eauto).
  destruct r as [id| | |].
  - (* accepted *)
    eapply (Fin _ ([QAuthReply cid w; QAuthed cid input id] ++ [QOpen cid])).
    { cbn [pb_act]. unfold pb_auth. rewrite Nt, Au, As. reflexivity. }
    set (k2 := fold_left _ _ _). assert (K : k2 = mkLink (lk_c (link_s_greet w k1)) (end_on (lk_s (link_s_greet w k1)))).
    { unfold k2. cbn [app fold_left]. unfold geff. cbn [s_tgt]. destruct (eq_dec cid cid); congruence. }
    cbn zeta. rewrite K. cbn [app tak_on ctl_on flat_map]. rewrite !app_nil_r.
    split; [eapply (server_hs token auth TOK lk ok a); eauto|]. split; [reflexivity|]. split; [reflexivity|]. split; [|reflexivity].
    intros P. exfalso. revert P. apply Np; reflexivity.
  - (* refused *)
    eapply (Fin _ [QAuthReply cid w; QGone cid]).
    { cbn [pb_act]. unfold pb_auth. rewrite Nt, Au, As. reflexivity. }
    cbn [fold_left]. unfold geff. cbn [s_tgt]. destruct (eq_dec cid cid) as [_|]; [|congruence].
    split; [apply server_refuse; [exact Lk|exact B3|exact Of|eapply auth_server_err; exact As|exact Sf]|]. split; [cbn; rewrite app_nil_r; reflexivity|]. split; [cbn; rewrite app_nil_r; reflexivity|].
    split; [intros P; exfalso; revert P; apply Np; reflexivity|]. intros X. contradiction.
  - (* panicked *)
    eapply (Fin _ [QPanicked cid]).
    { cbn [pb_act]. unfold pb_auth. rewrite Nt, Au, As. reflexivity. }
    cbn [fold_left]. unfold geff. cbn [s_tgt].
    split; [apply server_read; [exact Lk|exact B3|exact Of|exact Sf]|]. split; [cbn; rewrite app_nil_r; reflexivity|]. split; [cbn; rewrite app_nil_r; reflexivity|].
    split; [intros P; exfalso; revert P; apply Np; reflexivity|]. intros X. contradiction.
  - (* still running *)
    assert (A : act (z_s z) (WAuth k input ok) = (z_s z, [])) by (cbn [pb_act]; unfold pb_auth; rewrite Nt, Au, As; reflexivity).
    unfold z_pub. rewrite A. cbn [fold_left].
    destruct (serve_core _ _ _ _ _ _ _ _ _ _ _ (WAuth k input ok) (z_links z) (z_s z) [] C L S ltac:(discriminate) A (same_view_refl _ _)) as (H1 & H2 & H3); [reflexivity| |split; [exact H1|]; split; [exact H2|exact H3]].
    intros c l' k0 k0' Hs Hc' G' G1'. rewrite G' in G1'. inversion G1'; subst k0'. cbn [fold_left tak_on ctl_on flat_map]. rewrite !app_nil_r. destruct (S6 _ _ _ Hc' G') as (X1 & X2 & X3 & X4).
    split; [eapply L; eauto|]. auto.
Qed.

(** ** A session *)
Lemma sess_wants e s x : s_wants_next buf e s x = true -> forall cid n, exists x' d,
  sn_iter buf cid (s_with_next e n) (pb_hist s) (pb_closed s) x =
  (x', d, match n with PnMsg m => [QControl cid m (msg_to_control m)] | _ => [] end, match n with PnMsg m => SCont | PnPending => SPend | _ => SDone end).
Proof using.
  clear TOK. unfold s_wants_next, sn_iter. cbn [s_with_next s_tick s_flush_ok s_ready s_send s_now s_next sn_pending sn_seq sn_pos sn_filter sn_flush].
  destruct (s_ready e); [|discriminate]. destruct (sn_pending x); [discriminate|]. destruct (bcast_recv _ _ _ _); try discriminate. intros _ cid n. destruct n; eexists _, _; reflexivity.
Qed.
Lemma sess_not_wants e s x cid x' d o r : s_wants_next buf e s x = false ->
  sn_iter buf cid (s_with_next e PnPending) (pb_hist s) (pb_closed s) x = (x', d, o, r) -> ctl_on cid o = [].
Proof using.
  clear TOK. unfold s_wants_next, sn_iter. cbn [s_with_next s_tick s_flush_ok s_ready s_send s_now s_next sn_pending sn_seq sn_pos sn_filter sn_flush].
  destruct (s_ready e); [|intros _ H; inversion H; reflexivity]. destruct (sn_pending x); [destruct (s_send e); intros _ H; inversion H; reflexivity|].
  destruct (bcast_recv _ _ _ _); try discriminate; cbn [andb]; intros _.
  all: try (intros H; inversion H; reflexivity). destruct (nth_error _ _); [|intros H; inversion H; reflexivity]. destruct (trie_contains _ _); [destruct (pub_into_wire _ _ _ _)|]; intros H; inversion H; reflexivity.
Qed.
Lemma s_effs_send cid os : (forall z, In z os -> match z with QOpen _ | QAuthReply _ _ => False | _ => True end) -> forall k,
  fold_left (s_eff cid) os k = fold_left (fun k m => link_s_send ps_encode [m] k) (tak_on cid os) k.
Proof using.
  clear TOK. induction os as [|z os IH]; intros H k; [reflexivity|]. cbn [fold_left tak_on flat_map]. fold (tak_on cid os). rewrite fold_left_app, <- IH by (intros w Hw; apply H; right; exact Hw). f_equal.
  specialize (H z (or_introl eq_refl)). unfold geff. destruct z as [| | | | | |c m [|]| | | | | | | |]; try contradiction; try reflexivity. cbn [s_tgt]. destruct (eq_dec c cid); reflexivity.
Qed.
Lemma sends_ok ms : forall k, LOK k -> en_on (lk_s k) = true ->
  let k' := fold_left (fun k m => link_s_send ps_encode [m] k) ms k in
  LOK k' /\ en_on (lk_s k') = true /\ en_sent (lk_s k') = en_sent (lk_s k) ++ ms /\ en_items (lk_s k') = en_items (lk_s k).
Proof using.
  clear TOK. induction ms as [|m ms IH]; intros k K On; cbn [fold_left]; [rewrite app_nil_r; auto|].
  destruct (IH (link_s_send ps_encode [m] k) (server_send _ _ k [m] K On) On) as (H1 & H2 & H3 & H4). split; [exact H1|]. split; [exact H2|]. split; [|exact H4].
  rewrite H3. cbn [link_s_send lk_s end_send en_sent]. rewrite <- app_assoc. reflexivity.
Qed.
Lemma sess_outs c e s s' os : act s (WSession c e) = (s', os) -> forall z, In z os -> match z with QOpen _ | QAuthReply _ _ => False | _ => True end.
Proof using.
  clear TOK. cbn [pb_act]. unfold pb_session. destruct (mget c (pb_sess s)) as [x|]; [|intros H; inversion H; subst; intros ? []].
  destruct (sn_iter buf c e (pb_hist s) (pb_closed s) x) as [[[x' d] o] r] eqn:It.
  assert (O : forall z, In z o -> match z with QOpen _ | QAuthReply _ _ => False | _ => True end).
  { revert It. unfold sn_iter. cbn [sn_pending sn_seq sn_pos sn_filter sn_flush]. destruct (s_ready e); [|intros H; inversion H; subst; intros ? []].
    destruct (sn_pending x); [destruct (s_send e); intros H; inversion H; subst; intros z [<-|[]]; exact I|].
    destruct (bcast_recv _ _ _ _).
    all: try (destruct (nth_error _ _); [destruct (trie_contains _ _); [destruct (pub_into_wire _ _ _ _)|]|]).
    all: try (destruct (s_next e)). all: intros H; inversion H; subst; intros z Hz; repeat (destruct Hz as [<-|Hz]; [exact I|]); contradiction. }
  destruct r; intros H; inversion H; subst; try exact O; intros z Hz; apply in_app_or in Hz; (destruct Hz as [Hz|[<-|[]]]; [apply O; exact Hz|exact I]).
Qed.

Lemma pubsess_inv cid e input z : ZI z -> ZI (z_pubsess max buf min auth co cid e input z).
Proof using.
  clear TOK. intros YY. unfold z_pubsess. destruct (mget cid (pb_sess (z_s z))) as [x|] eqn:Gp; [|exact YY].
  pose proof YY as (C & L & S). pose proof S as (S1 & S2 & S3 & S4 & S5 & S6 & S7).
  assert (Sub : forall e', subject (z_s z) (WSession cid e') = Some cid) by (intros e'; cbn [subject]; rewrite Gp; reflexivity).
  unfold z_link_of. destruct (mget cid (z_scids z)) as [l|] eqn:Hc.
  2: { apply serve_quiet; [exact YY|discriminate|]. intros c l Hs. rewrite Sub in Hs. inversion Hs; subst. congruence. }
  destruct (mget l (z_links z)) as [lk|] eqn:G; [|destruct (S3 _ _ Hc) as [_ (k0 & G0)]; congruence].
  assert (Lk : LOK lk) by (eapply L; eauto).
  assert (Opn : opn (z_s z) cid) by (unfold opn; congruence).
  destruct (S6 _ _ _ Hc G) as (B1 & B2 & B3 & B4). specialize (B4 Opn).
  assert (Npd : ~ pend (z_s z) cid) by (intros X; pose proof (fresh_fields _ (B3 X)) as (_ & _ & _ & _ & _ & F); congruence).
  assert (Fin : forall e' k1 s' os, act (z_s z) (WSession cid e') = (s', os) -> cview k1 = cview lk -> LOK k1 -> en_on (lk_s k1) = true ->
     en_sent (lk_s k1) = en_sent (lk_s lk) -> en_items (lk_s k1) = en_items (lk_s lk) ++ ctl_on cid os ->
     let ls' := fold_left (s_route (z_scids z)) os (mset l k1 (z_links z)) in
     CI (z_c z) (z_cevs z) (z_clog z) (z_ccids z) (z_tasks z) ls' /\ LI ls' /\ SI s' (z_sevs z ++ [WSession cid e']) (z_slog z ++ os) (z_backlog z) (z_scids z) ls').
  { intros e' k1 s' os A Cv K1 On Se It.
    apply (serve_core _ _ _ _ _ _ _ _ _ _ _ (WSession cid e') (mset l k1 (z_links z)) s' os C L S ltac:(discriminate) A).
    - eapply same_view_set; eauto.
    - intros l' H. apply mget_set_ne. intros ->. eapply H; eauto.
    - intros c l' k0 k0' Hs Hc' G' G1'. rewrite Sub in Hs. inversion Hs; subst c. rewrite Hc in Hc'. inversion Hc'; subst l'. rewrite G in G'. inversion G'; subst k0. rewrite mget_set_eq in G1'. inversion G1'; subst k0'.
      cbn zeta. rewrite s_effs_send by (eapply sess_outs; exact A). destruct (sends_ok (tak_on cid os) k1 K1 On) as (H1 & H2 & H3 & H4).
      split; [exact H1|]. split; [rewrite H3, Se; reflexivity|]. split; [rewrite H4; exact It|]. split; [|intros _; exact H2].
      intros P. exfalso. destruct (act_conns _ _ _ _ _ _ _ _ _ A) as (A1 & _). destruct (A1 _ P) as [P'|[P' _]]; [contradiction|discriminate]. }
  destruct (s_wants_next buf e (z_s z) x) eqn:W.
  - destruct (pipe_offers input (en_in (lk_s lk))) eqn:Of; [|exact YY].
    destruct (ps_poll input (lk_s lk)) as [r b] eqn:P. destruct (server_poll _ _ lk input r b Lk B4 Of P) as (P1 & P2 & P3 & P4 & P5).
    unfold z_pub, z_set_link. cbn [z_c z_s z_links z_backlog z_scids z_ccids z_tasks z_cevs z_clog z_sevs z_slog].
    destruct (act (z_s z) (WSession cid (s_with_next e (pn_of r)))) as [s' os] eqn:A.
    destruct (Fin (s_with_next e (pn_of r)) (mkLink (lk_c lk) b) s' os A) as (H1 & H2 & H3); try assumption; try reflexivity.
    + cbn [lk_s]. rewrite P3. f_equal. cbn [pb_act] in A. unfold pb_session in A. rewrite Gp in A. destruct (sess_wants _ _ _ W cid (pn_of r)) as (x' & d & E). rewrite E in A.
      destruct r as [m|er| | |]; cbn [pn_of] in A; inversion A; subst; try reflexivity. cbn [ctl_on flat_map]. destruct (eq_dec cid cid); [reflexivity|congruence].
    + split; [exact H1|]. split; [exact H2|exact H3].
  - unfold z_pub. destruct (act (z_s z) (WSession cid (s_with_next e PnPending))) as [s' os] eqn:A.
    assert (SameL : mset l lk (z_links z) = z_links z).
    { clear - G. induction (z_links z) as [|[y v] ls IH]; [discriminate|]. cbn [mget mset] in *. destruct (eq_dec l y) as [->|]; [congruence|]. rewrite IH by exact G. reflexivity. }
    destruct (Fin (s_with_next e PnPending) lk s' os A) as (H1 & H2 & H3); try assumption; try reflexivity.
    + cbn [pb_act] in A. unfold pb_session in A. rewrite Gp in A. destruct (sn_iter buf cid (s_with_next e PnPending) (pb_hist (z_s z)) (pb_closed (z_s z)) x) as [[[x' d] o] r] eqn:Pi.
      pose proof (sess_not_wants _ _ _ _ _ _ _ _ W Pi) as I0. destruct r; inversion A; subst; rewrite ?ctl_on_app, I0; cbn; rewrite app_nil_r; reflexivity.
    + rewrite SameL in H1, H2, H3. split; [exact H1|]. split; [exact H2|exact H3].
Qed.

(** ** Every run *)
Lemma init_inv : ZI z_init.
Proof using.
  clear TOK. split; [|split].
  - split; [reflexivity|]. split; [reflexivity|]. split; [intros c c' l H; discriminate|]. split; [discriminate|]. split; [discriminate|]. split; [discriminate|]. split; [discriminate|]. split; [discriminate|]. intros; split; reflexivity.
  - intros l k H. discriminate.
  - split; [reflexivity|]. split; [intros c c' l H; discriminate|]. split; [discriminate|]. split; [intros l []|]. split; [discriminate|]. split; [discriminate|]. intros; split; reflexivity.
Qed.
Lemma step_inv z ev : ZI z -> ZI (z_step token ingress initial D max buf min auth co z ev).
Proof using TOK.
  intros Y. destruct ev as [f| | |a now| |a ok|k r order|c e i|from|k r|k i b|c e i|t p|t p|]; cbn [z_step].
  - apply sub_dull; [exact Y|discriminate].
  - apply sub_dull; [exact Y|discriminate].
  - apply sub_dull; [exact Y|discriminate].
  - apply sub_dull; [exact Y|discriminate].
  - apply sub_dull; [exact Y|discriminate].
  - apply connected_inv; exact Y.
  - apply join_inv; exact Y.
  - apply subsess_inv; exact Y.
  - apply accept_inv; exact Y.
  - apply conn_inv; exact Y.
  - apply auth_inv; exact Y.
  - apply pubsess_inv; exact Y.
  - apply app_inv; [exact I|exact Y].
  - apply app_inv; [exact I|exact Y].
  - apply app_inv; [exact I|exact Y].
Qed.
Theorem z_inv evs : ZI (z_run token ingress initial D max buf min auth co evs).
Proof using TOK.
  unfold z_run. pose proof init_inv as H. revert H. generalize z_init. induction evs as [|ev evs IH]; intros z H; [exact H|]. cbn [fold_left]. apply IH, step_inv, H.
Qed.
End Z.
