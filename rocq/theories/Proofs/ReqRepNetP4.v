(** The joint model of a request and a reply socket: the steps of the server. *)
From Coq Require Import ZArith Permutation.
From Verif Require Import Model.Base Model.Map Model.Framed Model.WireReqRep Model.WireAuth Model.Compression Model.Backoff Model.Handshake Model.ReqDriver Model.RepDriver Model.Net Model.ReqRepNet
  Spec.Wire Spec.Stream Spec.AuthSpec Spec.ReqSpec Spec.RepSpec
  Proofs.BaseP Proofs.MapP Proofs.FramedP2 Proofs.ReqRepP Proofs.AuthP Proofs.HandshakeP Proofs.HandshakeP2 Proofs.NetP
  Proofs.ReqDriverP Proofs.RepDriverP Proofs.RepDriverP2 Proofs.RepNetP Proofs.ReqRepNetP Proofs.ReqRepNetP2 Proofs.ReqRepNetP3.
Local Open Scope N_scope.

Section Y.
Variables (o : ropts) (token : option bytes) (cco : option compressor)
          (max : option N) (min : N) (auth : option (bytes -> bool)) (sco : option compressor) (D : decompressors).
Hypothesis TOK : forall t, token = Some t -> blen t < 2 ^ 32.
Notation LOK := (link_ok token auth).
Notation CI := (CI o cco D).
Notation LI := (LI token auth).
Notation SI := (SI max min auth sco D).
Notation YI := (YI o token cco max min auth sco D).
Notation act := (rp_act max min auth sco D).
Notation serve := (y_serve max min auth sco D).

Lemma rep_snoc s evs ev : rp_run max min auth sco D s (evs ++ [ev]) = let (s1, o1) := rp_run max min auth sco D s evs in let (s2, o2) := act s1 ev in (s2, o1 ++ o2).
Proof using. clear TOK. rewrite RepDriverP.run_app. destruct (rp_run max min auth sco D s evs) as [s1 o1]. cbn [rp_run]. destruct (act s1 ev) as [s2 o2]. rewrite app_nil_r. reflexivity. Qed.

Lemma serve_core c cevs clog cur task ls s sevs slog backlog cids ev ls1 s' os :
  CI c cevs clog cur task ls -> LI ls -> SI s sevs slog backlog cids ls ->
  ev <> VAccept -> act s ev = (s', os) -> same_view cview ls ls1 ->
  (forall l, (forall cid, mget cid cids = Some l -> subject s ev <> Some cid) -> mget l ls1 = mget l ls) ->
  (forall cid l k k1, subject s ev = Some cid -> mget cid cids = Some l -> mget l ls = Some k -> mget l ls1 = Some k1 ->
     let k2 := fold_left (s_eff cid) os k1 in
     LOK k2 /\ en_sent (lk_s k2) = en_sent (lk_s k) ++ tak_on cid os /\ en_items (lk_s k2) = en_items (lk_s k) ++ inc_on cid os /\
     (pend s' cid -> fresh_s k2) /\ (opn s' cid -> en_on (lk_s k2) = true)) ->
  let ls' := fold_left (route cids) os ls1 in
  CI c cevs clog cur task ls' /\ LI ls' /\ SI s' (sevs ++ [ev]) (slog ++ os) backlog cids ls'.
Proof using.
  clear TOK. intros C L S Na A V Ot Sub ls'. pose proof S as (S1 & S2 & S3 & S4 & S5 & S6 & S7).
  assert (V' : same_view cview ls ls') by (eapply same_view_trans; [exact V|apply routes_view]).
  destruct (act_conns _ _ _ _ _ _ _ _ _ A) as (A1 & A2 & A3).
  assert (Nc : rp_next_cid s' = rp_next_cid s) by (destruct A3 as [A3|[A3 _]]; [exact A3|congruence]).
  assert (Ex : forall l, (exists k, mget l ls = Some k) -> exists k, mget l ls' = Some k).
  { intros l (k & H). destruct (view_get' _ _ _ _ _ V' H) as (k' & H' & _). eauto. }
  assert (Pd : forall x, pend s' x -> pend s x) by (intros x Hx; destruct (A1 x Hx) as [H|[H _]]; [exact H|congruence]).
  (* unmapped links, and links of other connections *)
  assert (U : forall l, (forall cid, mget cid cids <> Some l) -> mget l ls' = mget l ls).
  { intros l Hn. unfold ls'. destruct (routes_get cids os l S2 ls1) as [_ R2]. rewrite (R2 Hn). apply Ot. intros cid H. exfalso. eapply Hn; eauto. }
  assert (O : forall cid l, mget cid cids = Some l -> subject s ev <> Some cid -> mget l ls' = mget l ls /\ tak_on cid os = [] /\ inc_on cid os = []).
  { intros cid l Hc Ns. assert (Nm : forall x, In x os -> ~ mentions cid x) by (intros x Hx M; apply Ns; eapply act_mentions; eauto).
    split; [|apply on_none; exact Nm]. unfold ls'. destruct (routes_get cids os l S2 ls1) as [R1 _]. rewrite (R1 _ Hc).
    rewrite Ot by (intros cid' Hc'; rewrite (S2 _ _ _ Hc' Hc); exact Ns). destruct (mget l ls) as [k|]; [|reflexivity]. cbn. rewrite eff_none by exact Nm. reflexivity. }
  assert (Su : forall cid l k', mget cid cids = Some l -> subject s ev = Some cid -> mget l ls' = Some k' -> exists k k1, mget l ls = Some k /\ mget l ls1 = Some k1 /\ k' = fold_left (s_eff cid) os k1).
  { intros cid l k' Hc Hs G. unfold ls' in G. destruct (routes_get cids os l S2 ls1) as [R1 _]. rewrite (R1 _ Hc) in G. destruct (mget l ls1) as [k1|] eqn:G1; [|discriminate]. cbn in G. inversion G.
    destruct (view_get _ _ _ _ _ V G1) as (k & Gk & _). eauto. }
  assert (Sd : forall cid, subject s ev = Some cid \/ subject s ev <> Some cid).
  { intros cid. destruct (subject s ev) as [c'|]; [|right; discriminate]. destruct (N.eq_dec c' cid) as [->|]; [left; reflexivity|right; congruence]. }
  split; [eapply CI_view; eauto|]. split.
  - intros l k' G. destruct (mapped_dec cids l) as [(cid & Hc)|Hn].
    + destruct (Sd cid) as [Hs|Hs].
      * destruct (Su _ _ _ Hc Hs G) as (k & k1 & G0 & G1 & ->). apply (Sub _ _ _ _ Hs Hc G0 G1).
      * destruct (O _ _ Hc Hs) as (E & _). rewrite E in G. eapply L; eauto.
    + rewrite (U _ Hn) in G. eapply L; eauto.
  - split; [rewrite rep_snoc, S1, A; reflexivity|]. split; [exact S2|].
    split; [intros cid l H; rewrite Nc; destruct (S3 cid l H) as [X Y]; auto|]. split; [intros l H; destruct (S4 l H) as [X Y]; auto|].
    split; [intros l k G Hn; rewrite (U _ Hn) in G; eapply S5; eauto|]. split.
    + intros cid l k' Hc G. rewrite tak_on_app, inc_on_app. destruct (Sd cid) as [Hs|Hs].
      * destruct (Su _ _ _ Hc Hs G) as (k & k1 & G0 & G1 & ->). destruct (Sub _ _ _ _ Hs Hc G0 G1) as (_ & E1 & E2 & E3 & E4). destruct (S6 _ _ _ Hc G0) as (B1 & B2 & _ & _).
        rewrite E1, E2, B1, B2. auto.
      * destruct (O _ _ Hc Hs) as (E & E1 & E2). rewrite E in G. destruct (S6 _ _ _ Hc G) as (B1 & B2 & B3 & B4). rewrite E1, E2, !app_nil_r. split; [exact B1|]. split; [exact B2|]. split; [auto|].
        intros Op. destruct (A2 _ Op) as [Op'|[Hs' _]]; [apply B4; exact Op'|contradiction].
    + intros x Hx. rewrite Nc in Hx. rewrite tak_on_app, inc_on_app. destruct (S7 x Hx) as [-> ->]. cbn [app].
      (* a connection that does not exist yet is not mentioned *)
      apply on_none. intros z Hz M. pose proof (act_mentions _ _ _ _ _ _ _ _ _ _ _ A Hz M) as Hs.
      pose proof (run_inv1 max min auth sco D sevs s slog S1) as I1. destruct I1 as (_ & _ & I3 & I4 & _).
      assert (Cx : In x (connections s)).
      { unfold connections. rewrite !in_app_iff. destruct ev as [a e|k i b|k r| | |rid y|rid|]; cbn [subject] in Hs; try discriminate.
        - destruct (mget a (rp_peers s)) as [p|] eqn:G; [|discriminate]. destruct (pr_open p) eqn:Op; [|discriminate]. inversion Hs; subst. right; right. unfold open_cids. apply in_flat_map. exists (a, p). split; [apply mget_in; exact G|]. cbn [snd]. unfold oc. rewrite Op. left; reflexivity.
        - destruct (nth_error (rp_auths s) k) as [[x' a]|] eqn:Nt; [|discriminate]. inversion Hs; subst. right; left. apply nth_error_In in Nt. apply (in_map fst) in Nt. exact Nt.
        - left. apply nth_error_In in Hs. exact Hs. }
      assert (x < rp_next_cid s); [|lia]. apply I3. eapply Permutation_in; [symmetry; exact I4|]. apply in_or_app; left; exact Cx.
Qed.

(** ** Steps that say nothing to the links *)
Lemma serve_quiet ev y : YI y -> ev <> VAccept -> (forall cid l, subject (sy_s y) ev = Some cid -> mget cid (sy_cids y) <> Some l) -> YI (serve ev y).
Proof using.
  clear TOK. intros (C & L & S) Na Ns. unfold y_serve. destruct (act (sy_s y) ev) as [s' os] eqn:A.
  destruct (serve_core _ _ _ _ _ _ _ _ _ _ _ ev (sy_links y) s' os C L S Na A (same_view_refl _ _)) as (H1 & H2 & H3).
  - reflexivity.
  - intros cid l k k1 Hs Hc. exfalso. eapply Ns; eauto.
  - split; [exact H1|]. split; [exact H2|exact H3].
Qed.

Lemma noauth_subject (s : rp) ev : match ev with VRecv | VRespond _ _ | VDiscard _ | VDropSocket => True | _ => False end -> subject s ev = None /\ ev <> VAccept.
Proof using. destruct ev; cbn; try contradiction; intros _; split; try reflexivity; discriminate. Qed.
Lemma app_inv ev y : match ev with VRecv | VRespond _ _ | VDiscard _ | VDropSocket => True | _ => False end -> YI y -> YI (serve ev y).
Proof using. clear TOK. intros H Y. destruct (noauth_subject (sy_s y) ev H) as [H1 H2]. apply serve_quiet; [exact Y|exact H2|]. rewrite H1. discriminate. Qed.

(** ** The listener *)
Lemma sdel_in (a x : N) l : In x (sdel a l) -> In x l /\ x <> a.
Proof using. intros H. apply in_remove in H. exact H. Qed.
Lemma accept_inv from y : YI y -> YI (y_accept max min auth sco D from y).
Proof using.
  clear TOK. intros (C & L & S). pose proof S as (S1 & S2 & S3 & S4 & S5 & S6 & S7).
  assert (Nm : forall s' os, act (sy_s y) VAccept = (s', os) ->
    (forall ls, fold_left (route (sy_cids y)) os ls = ls) /\ (forall x, tak_on x os = [] /\ inc_on x os = []) /\ (forall x, opn s' x <-> opn (sy_s y) x) /\
    ((s' = sy_s y) \/ (rp_next_cid s' = rp_next_cid (sy_s y) + 1 /\ forall x, pend s' x -> pend (sy_s y) x \/ x = rp_next_cid (sy_s y)))).
  { intros s' os A. cbn [rp_act] in A. unfold rp_accept in A. destruct (match max with Some m => _ | None => _ end); inversion A; subst; (split; [reflexivity|]; split; [intros; split; reflexivity|]; split; [intros; reflexivity|]); [left; reflexivity|right].
    split; [reflexivity|]. intros x [Hx|Hx]; [|left; right; exact Hx]. cbn in Hx. apply in_app_or in Hx. destruct Hx as [Hx|[<-|[]]]; [left; left; exact Hx|right; reflexivity]. }
  destruct (act (sy_s y) VAccept) as [s' os] eqn:A. destruct (Nm _ _ eq_refl) as (N1 & N2 & N3 & N4). clear Nm.
  assert (R : rp_run max min auth sco D rp_init (sy_sevs y ++ [VAccept]) = (s', sy_slog y ++ os)) by (rewrite rep_snoc, S1, A; reflexivity).
  assert (Tk : forall x, tak_on x (sy_slog y ++ os) = tak_on x (sy_slog y) /\ inc_on x (sy_slog y ++ os) = inc_on x (sy_slog y)).
  { intros x. destruct (N2 x) as [E1 E2]. rewrite tak_on_app, inc_on_app, E1, E2, !app_nil_r. auto. }
  assert (Le : rp_next_cid (sy_s y) <= rp_next_cid s') by (destruct N4 as [->|[-> _]]; lia).
  (* nobody was taken from the backlog *)
  assert (Q : forall bl, (forall l, In l bl -> In l (sy_backlog y)) -> (forall x, pend s' x -> pend (sy_s y) x \/ rp_next_cid (sy_s y) <= x) -> SI s' (sy_sevs y ++ [VAccept]) (sy_slog y ++ os) bl (sy_cids y) (sy_links y)).
  { intros bl Hb Hp. split; [exact R|]. split; [exact S2|]. split; [intros cid l H; destruct (S3 _ _ H) as [X Y]; split; [lia|exact Y]|].
    split; [intros l Hl; apply S4, Hb, Hl|]. split; [exact S5|]. split.
    - intros cid l k Hc G. destruct (Tk cid) as [-> ->]. destruct (S6 _ _ _ Hc G) as (B1 & B2 & B3 & B4). split; [exact B1|]. split; [exact B2|]. split; [|intros Op; apply B4, N3, Op].
      intros P. destruct (Hp _ P) as [P'|P']; [apply B3; exact P'|]. destruct (S3 _ _ Hc). lia.
    - intros x Hx. destruct (Tk x) as [-> ->]. apply S7. lia. }
  assert (Q0 : forall x, pend s' x -> pend (sy_s y) x \/ rp_next_cid (sy_s y) <= x).
  { intros x Hx. destruct N4 as [->|[_ N4]]; [left; exact Hx|]. destruct (N4 _ Hx) as [H| ->]; [left; exact H|right; lia]. }
  assert (Sv : serve VAccept y = mkSys (sy_c y) s' (sy_links y) (sy_backlog y) (sy_cids y) (sy_cur y) (sy_task y) (sy_cevs y) (sy_clog y) (sy_sevs y ++ [VAccept]) (sy_slog y ++ os)).
  { unfold y_serve. rewrite A, N1. reflexivity. }
  unfold y_accept. destruct from as [l0|]; [|rewrite Sv; split; [exact C|]; split; [exact L|]; apply Q; auto].
  destruct (smem l0 (sy_backlog y)) eqn:Mb; [|split; [|split]; assumption].
  assert (Hb : In l0 (sy_backlog y)) by (apply smem_true; exact Mb).
  rewrite Sv. split; [exact C|]. split; [exact L|]. cbn [sy_s sy_sevs sy_slog sy_backlog sy_cids sy_links].
  destruct (rp_next_cid (sy_s y) =? rp_next_cid s') eqn:Nc.
  - apply Q; [|exact Q0]. intros l Hl. apply sdel_in in Hl. apply Hl.
  - apply N.eqb_neq in Nc. destruct N4 as [->|[N4 N5]]; [congruence|]. set (c0 := rp_next_cid (sy_s y)) in *.
    assert (Gn : forall x, mget x (mset c0 l0 (sy_cids y)) = if eq_dec x c0 then Some l0 else mget x (sy_cids y)) by (intros; apply mget_set).
    destruct (S4 _ Hb) as [(k0 & G0) Un].
    split; [exact R|]. split.
    { intros c1 c2 l H1 H2. rewrite Gn in H1, H2. destruct (eq_dec c1 c0), (eq_dec c2 c0); [congruence| | |eapply S2; eauto]; exfalso; [apply (Un c2)|apply (Un c1)]; congruence. }
    split.
    { intros cid l H. rewrite Gn in H. destruct (eq_dec cid c0) as [->|]; [inversion H; subst; split; [lia|eauto]|]. destruct (S3 _ _ H) as [X Y]. split; [lia|exact Y]. }
    split.
    { intros l Hl. apply sdel_in in Hl. destruct Hl as [Hl Ne]. destruct (S4 _ Hl) as [X Y]. split; [exact X|]. intros cid H. rewrite Gn in H. destruct (eq_dec cid c0); [congruence|eapply Y; eauto]. }
    split.
    { intros l k G Hn. eapply S5; [exact G|]. intros cid H. destruct (eq_dec cid c0) as [->|Ne]; [destruct (S3 _ _ H); lia|]. apply (Hn cid). rewrite Gn. destruct (eq_dec cid c0); [contradiction|exact H]. }
    split.
    + intros cid l k H G. destruct (Tk cid) as [-> ->]. rewrite Gn in H. destruct (eq_dec cid c0) as [->|].
      * inversion H; subst l. destruct (S7 c0 (N.le_refl _)) as [-> ->]. pose proof (S5 _ _ G Un) as Fr. pose proof (fresh_fields _ Fr) as (_ & _ & F3 & _ & F5 & _).
        split; [exact F5|]. split; [exact F3|]. split; [intros _; exact Fr|]. intros Op. apply N3 in Op. exfalso.
        destruct Op as (a & p & Gp & Op & Cp). pose proof (run_inv1 max min auth sco D _ _ _ S1) as (_ & _ & I3 & I4 & _).
        assert (c0 < rp_next_cid (sy_s y)); [|unfold c0 in *; lia]. apply I3. eapply Permutation_in; [symmetry; exact I4|]. apply in_or_app; left. unfold connections. rewrite !in_app_iff. right; right.
        unfold open_cids. apply in_flat_map. exists (a, p). split; [apply mget_in; exact Gp|]. cbn [snd]. unfold oc. rewrite Op. left; exact Cp.
      * destruct (S6 _ _ _ H G) as (B1 & B2 & B3 & B4). split; [exact B1|]. split; [exact B2|]. split; [|intros Op; apply B4, N3, Op].
        intros P. destruct (N5 _ P) as [P'|P']; [apply B3; exact P'|contradiction].
    + intros x Hx. destruct (Tk x) as [-> ->]. apply S7. unfold c0 in *. lia.
Qed.

(** ** The accept future of a connection ends *)
Lemma cut_not_in {A} (l : list A) k x : NoDup l -> nth_error l k = Some x -> ~ In x (firstn k l ++ skipn (S k) l).
Proof using. intros Nd H Hin. pose proof (nth_cut l k x H) as P. apply (Permutation_NoDup P) in Nd. inversion Nd; contradiction. Qed.

Lemma conn_inv k r y : YI y -> YI (serve (VConn k r) y).
Proof using.
  clear TOK. intros YY. pose proof YY as (C & L & S). pose proof S as (S1 & S2 & S3 & S4 & S5 & S6 & S7). unfold y_serve. destruct (act (sy_s y) (VConn k r)) as [s' os] eqn:A.
  destruct (serve_core _ _ _ _ _ _ _ _ _ _ _ (VConn k r) (sy_links y) s' os C L S ltac:(discriminate) A (same_view_refl _ _)) as (H1 & H2 & H3); [reflexivity| |split; [exact H1|]; split; [exact H2|exact H3]].
  intros cid l lk k1 Hs Hc G G1 k2. rewrite G in G1. inversion G1; subst k1. clear G1. cbn [subject] in Hs.
  assert (Pn : pend (sy_s y) cid) by (left; apply nth_error_In in Hs; exact Hs).
  destruct (S6 _ _ _ Hc G) as (B1 & B2 & B3 & B4). specialize (B3 Pn). pose proof (fresh_fields _ B3) as (F1 & F2 & F3 & F4 & F5 & F6).
  destruct (act_conns _ _ _ _ _ _ _ _ _ A) as (A1 & A2 & _).
  cbn [rp_act] in A. unfold rp_conn in A. rewrite Hs in A.
  assert (Idle : k2 = lk -> tak_on cid os = [] -> inc_on cid os = [] -> (opn s' cid -> opn (sy_s y) cid) ->
    LOK k2 /\ en_sent (lk_s k2) = en_sent (lk_s lk) ++ tak_on cid os /\ en_items (lk_s k2) = en_items (lk_s lk) ++ inc_on cid os /\ (pend s' cid -> fresh_s k2) /\ (opn s' cid -> en_on (lk_s k2) = true)).
  { intros -> -> -> Op. rewrite !app_nil_r. split; [eapply L; eauto|]. split; [reflexivity|]. split; [reflexivity|]. split; [intros _; exact B3|]. intros X. apply B4, Op, X. }
  destruct r as [[addr|]|].
  - destruct auth as [a|] eqn:Au.
    + inversion A; subst. apply Idle; try reflexivity. intros Op. exact Op.
    + destruct (rp_insert _ cid addr) as [sx ox] eqn:I. inversion A; subst sx ox. unfold rp_insert in I. apply pair_equal_spec in I. destruct I as [Es Eo].
      match type of Eo with ROpen _ _ :: ?t = _ => set (tl := t) in * end.
      assert (Tl : forall z, In z tl -> ~ mentions cid z) by (unfold tl; intros z Hz; destruct (mget addr _) as [p|]; [destruct (pr_open p)|]; [destruct Hz as [<-|[]]; intros []|destruct Hz..]).
      assert (K : k2 = mkLink (lk_c lk) (end_on (lk_s lk))).
      { unfold k2. rewrite <- Eo. cbn [fold_left]. rewrite eff_none by exact Tl. cbn [s_eff]. destruct (eq_dec cid cid); congruence. }
      destruct (on_none cid tl Tl) as [T1 T2].
      assert (E1 : tak_on cid os = []) by (rewrite <- Eo; exact T1). assert (E2 : inc_on cid os = []) by (rewrite <- Eo; exact T2).
      rewrite K, E1, E2, !app_nil_r. split; [apply server_open; [eapply L; eauto|exact B3|reflexivity]|]. split; [reflexivity|]. split; [reflexivity|]. split; [|reflexivity].
      intros P. exfalso. pose proof (inv1_nodup _ _ (run_inv1 max min _ sco D _ _ _ S1)) as Nd. unfold connections in Nd.
      rewrite <- Es in P. unfold pend in P. cbn [rp_with_peers rp_conns rp_auths] in P.
      assert (Nd1 : NoDup (rp_conns (sy_s y) ++ map fst (rp_auths (sy_s y)))).
      { rewrite app_assoc in Nd. apply NoDup_app_l in Nd. exact Nd. }
      destruct P as [P|P].
      * apply NoDup_app_l in Nd1. eapply cut_not_in; eauto.
      * apply nth_error_In in Hs. eapply NoDup_app_dj; eauto.
  - inversion A; subst. apply Idle; try reflexivity. intros Op. exact Op.
  - inversion A; subst. apply Idle; try reflexivity. intros Op. exact Op.
Qed.

(** ** The auth task of a connection ends *)
Lemma au_next_suffix n : forall f input r f' rest, au_next n f input = (r, f', rest) -> exists used, input = used ++ rest.
Proof using.
  clear TOK. induction n as [|n IH]; intros f input r f' rest; cbn [au_next].
  - intros H. destruct (framed_poll au_decode AUIo f input) as [[x g] rr] eqn:P. apply poll_suffix in P. destruct x, rr; inversion H; subst; exact P.
  - intros H. destruct (framed_poll au_decode AUIo f input) as [[x g] rr] eqn:P. apply poll_suffix in P. destruct P as (u & ->). destruct x, rr; try (inversion H; subst; eauto; fail).
    apply IH in H. destruct H as (u2 & ->). exists (u ++ u2). rewrite app_assoc. reflexivity.
Qed.
Lemma auth_server_suffix a b input r w rest : auth_server a b input = (r, w, rest) -> exists used, input = used ++ rest.
Proof using.
  clear TOK. unfold auth_server. destruct (au_next (length input) (framed_new au_server) input) as [[x g] rr] eqn:P. apply au_next_suffix in P.
  destruct x as [[id| |]| | | |]; [destruct (a id); [destruct b|]|..]; intros H; inversion H; subst; exact P.
Qed.

Lemma auth_inv k input ok y : YI y -> YI (y_auth max min auth sco D k input ok y).
Proof using TOK.
  intros YY. unfold y_auth. destruct (nth_error (rp_auths (sy_s y)) k) as [[cid addr]|] eqn:Nt; [|exact YY].
  destruct auth as [a|] eqn:Au; [|exact YY]. rewrite <- Au in *.
  pose proof YY as (C & L & S). pose proof S as (S1 & S2 & S3 & S4 & S5 & S6 & S7).
  assert (Sub : subject (sy_s y) (VAuth k input ok) = Some cid) by (cbn [subject]; rewrite Nt; reflexivity).
  unfold link_of. destruct (mget cid (sy_cids y)) as [l|] eqn:Hc.
  2: { apply serve_quiet; [exact YY|discriminate|]. intros c l Hs. rewrite Sub in Hs. inversion Hs; subst. congruence. }
  destruct (mget l (sy_links y)) as [lk|] eqn:G; [|destruct (S3 _ _ Hc) as [_ (k0 & G0)]; congruence].
  destruct (pipe_offers input (en_in (lk_s lk))) eqn:Of; [|exact YY].
  assert (Pn : pend (sy_s y) cid) by (right; apply nth_error_In in Nt; apply (in_map fst) in Nt; exact Nt).
  destruct (S6 _ _ _ Hc G) as (B1 & B2 & B3 & B4). specialize (B3 Pn). pose proof (fresh_fields _ B3) as (F1 & F2 & F3 & F4 & F5 & F6).
  assert (Nop : ~ opn (sy_s y) cid) by (intros X; rewrite (B4 X) in F6; discriminate).
  destruct (auth_server a ok input) as [[r w] rest] eqn:As. pose proof (auth_server_suffix _ _ _ _ _ _ As) as Sf.
  set (k1 := mkLink (lk_c lk) (end_hs input rest (lk_s lk))).
  assert (V : same_view cview (sy_links y) (mset l k1 (sy_links y))) by (eapply same_view_set; [exact G|reflexivity]).
  assert (Others : forall l', (forall c, mget c (sy_cids y) = Some l' -> subject (sy_s y) (VAuth k input ok) <> Some c) -> mget l' (mset l k1 (sy_links y)) = mget l' (sy_links y)).
  { intros l' H. apply mget_set_ne. intros ->. eapply H; eauto. }
  (* no longer pending *)
  assert (Np : forall s', rp_conns s' = rp_conns (sy_s y) -> rp_auths s' = firstn k (rp_auths (sy_s y)) ++ skipn (Datatypes.S k) (rp_auths (sy_s y)) -> ~ pend s' cid).
  { intros s' E1 E2 P. unfold pend in P. rewrite E1, E2 in P. pose proof (inv1_nodup _ _ (run_inv1 max min _ sco D _ _ _ S1)) as Nd. unfold connections in Nd. rewrite app_assoc in Nd. apply NoDup_app_l in Nd.
    destruct P as [P|P].
    - apply nth_error_In in Nt. apply (in_map fst) in Nt. eapply NoDup_app_dj; eauto.
    - apply NoDup_app_r in Nd. assert (Nt' : nth_error (map fst (rp_auths (sy_s y))) k = Some cid) by (rewrite nth_error_map, Nt; reflexivity).
      apply (cut_not_in _ _ _ Nd Nt'). rewrite map_app, <- firstn_map, <- skipn_map in P. exact P. }
  assert (Fin : forall s' os, act (sy_s y) (VAuth k input ok) = (s', os) ->
     (let k2 := fold_left (s_eff cid) os k1 in LOK k2 /\ en_sent (lk_s k2) = en_sent (lk_s lk) ++ tak_on cid os /\ en_items (lk_s k2) = en_items (lk_s lk) ++ inc_on cid os /\
        (pend s' cid -> fresh_s k2) /\ (opn s' cid -> en_on (lk_s k2) = true)) -> YI (serve (VAuth k input ok) (set_link l k1 y))).
  { intros s' os A K. unfold y_serve, set_link. cbn [sy_c sy_s sy_links sy_backlog sy_cids sy_cur sy_task sy_cevs sy_clog sy_sevs sy_slog]. rewrite A.
    destruct (serve_core _ _ _ _ _ _ _ _ _ _ _ (VAuth k input ok) (mset l k1 (sy_links y)) s' os C L S ltac:(discriminate) A V Others) as (H1 & H2 & H3); [|split; [exact H1|]; split; [exact H2|exact H3]].
    intros c l' k0 k0' Hs Hc' G' G1'. rewrite Sub in Hs. inversion Hs; subst c. rewrite Hc in Hc'. inversion Hc'; subst l'. rewrite G in G'. inversion G'; subst k0. rewrite mget_set_eq in G1'. inversion G1'; subst k0'. exact K. }
  assert (Lk : LOK lk) by (eapply L; eauto).
  destruct r as [id| | |].
  - (* accepted *)
    destruct (rp_insert (mkRp (rp_active (sy_s y)) (rp_conns (sy_s y)) (firstn k (rp_auths (sy_s y)) ++ skipn (Datatypes.S k) (rp_auths (sy_s y))) (rp_peers (sy_s y)) (rp_chan (sy_s y))
                   (rp_held (sy_s y)) (rp_os (sy_s y)) (rp_next_rid (sy_s y)) (rp_next_cid (sy_s y)) (rp_tx (sy_s y)) (rp_rx (sy_s y)) (rp_failed (sy_s y)) (rp_dropped (sy_s y))) cid addr) as [s' o2] eqn:I.
    apply (Fin s' ([RAuthReply cid w; RAuthed cid input id] ++ o2)).
    { cbn [rp_act]. unfold rp_auth. rewrite Nt, Au, As, I. reflexivity. }
    unfold rp_insert in I. apply pair_equal_spec in I. destruct I as [Es Eo]. match type of Eo with ROpen _ _ :: ?t = _ => set (tl := t) in * end.
    assert (Tl : forall z, In z tl -> ~ mentions cid z) by (unfold tl; intros z Hz; destruct (mget addr _) as [p|]; [destruct (pr_open p)|]; [destruct Hz as [<-|[]]; intros []|destruct Hz..]).
    destruct (on_none cid tl Tl) as [T1 T2].
    set (k2 := fold_left _ _ _). assert (K : k2 = mkLink (lk_c (link_s_greet w k1)) (end_on (lk_s (link_s_greet w k1)))).
    { unfold k2. rewrite <- Eo. cbn [app fold_left]. rewrite eff_none by exact Tl. cbn [s_eff]. destruct (eq_dec cid cid); congruence. }
    cbn zeta. rewrite K. replace (tak_on cid ([RAuthReply cid w; RAuthed cid input id] ++ o2)) with (@nil rr_msg) by (rewrite <- Eo; symmetry; exact T1).
    replace (inc_on cid ([RAuthReply cid w; RAuthed cid input id] ++ o2)) with (@nil rr_msg) by (rewrite <- Eo; symmetry; exact T2). rewrite !app_nil_r.
    split; [eapply (server_hs token auth TOK lk ok a); eauto|]. split; [reflexivity|]. split; [reflexivity|]. split; [|reflexivity].
    intros P. exfalso. revert P. apply Np; rewrite <- Es; reflexivity.
  - (* refused *)
    eapply (Fin _ [RAuthReply cid w; RGone cid]).
    { cbn [rp_act]. unfold rp_auth. rewrite Nt, Au, As. reflexivity. }
    cbn [fold_left s_eff]. destruct (eq_dec cid cid) as [_|]; [|congruence].
    split; [apply server_refuse; [exact Lk|exact B3|exact Of|eapply auth_server_err; exact As|exact Sf]|]. split; [cbn; rewrite app_nil_r; reflexivity|]. split; [cbn; rewrite app_nil_r; reflexivity|].
    split; [intros P; exfalso; revert P; apply Np; reflexivity|]. intros X. contradiction.
  - (* panicked *)
    eapply (Fin _ [RPanicked cid]).
    { cbn [rp_act]. unfold rp_auth. rewrite Nt, Au, As. reflexivity. }
    cbn [fold_left s_eff].
    split; [apply server_read; [exact Lk|exact B3|exact Of|exact Sf]|]. split; [cbn; rewrite app_nil_r; reflexivity|]. split; [cbn; rewrite app_nil_r; reflexivity|].
    split; [intros P; exfalso; revert P; apply Np; reflexivity|]. intros X. contradiction.
  - (* still running *)
    assert (A : act (sy_s y) (VAuth k input ok) = (sy_s y, [])) by (cbn [rp_act]; unfold rp_auth; rewrite Nt, Au, As; reflexivity).
    unfold y_serve. rewrite A. cbn [fold_left].
    destruct (serve_core _ _ _ _ _ _ _ _ _ _ _ (VAuth k input ok) (sy_links y) (sy_s y) [] C L S ltac:(discriminate) A (same_view_refl _ _)) as (H1 & H2 & H3); [reflexivity| |split; [exact H1|]; split; [exact H2|exact H3]].
    intros c l' k0 k0' Hs Hc' G' G1'. rewrite G' in G1'. inversion G1'; subst k0'. cbn [fold_left tak_on inc_on flat_map]. rewrite !app_nil_r. destruct (S6 _ _ _ Hc' G') as (X1 & X2 & X3 & X4).
    split; [eapply L; eauto|]. auto.
Qed.

(** ** A peer *)
Lemma wants_ok e s p : wants_next min sco e s p = true -> forall n, exists p',
  peer_iter min sco (with_pnext e n) (rp_os s) (rp_next_rid s) p (rp_tx s) (rp_failed s) =
  (p', rp_tx s, rp_failed s, [], match n with NxMsg m => PReq m | NxErr => PErr | NxEof => PNone | NxPending => PPend end).
Proof using.
  clear TOK. unfold wants_next, peer_iter, with_pnext. cbn [p_flush_ok p_ready p_send p_pref p_next]. set (q := if pr_flush p && p_flush_ok e then _ else p). clearbody q.
  destruct (if p_ready e then pr_egress q else []) as [|m rest]; [|destruct (p_send e); discriminate].
  destruct (pick (p_pref e) (rp_os s) (pr_pending q)) as [[r0 id]|].
  - destruct (mget r0 (rp_os s)) as [[|x|]|]; [|destruct (rep_outgoing min sco id x); discriminate|..]; intros _ []; eexists; reflexivity.
  - intros _ []; eexists; reflexivity.
Qed.
Lemma not_wants e s p p' tx fl o1 r : wants_next min sco e s p = false ->
  peer_iter min sco (with_pnext e NxPending) (rp_os s) (rp_next_rid s) p (rp_tx s) (rp_failed s) = (p', tx, fl, o1, r) ->
  forall cid, inc_on cid o1 = [] /\ (r = PCont \/ (r = PNone)).
Proof using.
  clear TOK. unfold wants_next, peer_iter, with_pnext. cbn [p_flush_ok p_ready p_send p_pref p_next]. set (q := if pr_flush p && p_flush_ok e then _ else p). clearbody q.
  destruct (if p_ready e then pr_egress q else []) as [|m rest].
  - destruct (pick (p_pref e) (rp_os s) (pr_pending q)) as [[r0 id]|]; [|discriminate].
    destruct (mget r0 (rp_os s)) as [[|x|]|]; try discriminate. destruct (rep_outgoing min sco id x); intros _ H; inversion H; subst; split; auto.
  - destruct (p_send e); intros _ H; inversion H; subst; split; auto.
Qed.
(** What a peer iteration says to its link. *)
Lemma effs_send cid os : (forall z, In z os -> match z with ROpen _ _ | RAuthReply _ _ => False | _ => True end) -> forall k,
  fold_left (s_eff cid) os k = fold_left (fun k m => link_s_send rr_encode [m] k) (tak_on cid os) k.
Proof using.
  clear TOK. induction os as [|z os IH]; intros H k; [reflexivity|]. cbn [fold_left tak_on flat_map]. fold (tak_on cid os). rewrite fold_left_app, <- IH by (intros w Hw; apply H; right; exact Hw). f_equal.
  specialize (H z (or_introl eq_refl)). destruct z as [| | | | |c m [|]| | | |c w|c a| | | | | | |]; try contradiction; try reflexivity. cbn [s_eff]. destruct (eq_dec c cid); reflexivity.
Qed.
Lemma sends_ok ms : forall k, LOK k -> en_on (lk_s k) = true ->
  let k' := fold_left (fun k m => link_s_send rr_encode [m] k) ms k in
  LOK k' /\ en_on (lk_s k') = true /\ en_sent (lk_s k') = en_sent (lk_s k) ++ ms /\ en_items (lk_s k') = en_items (lk_s k).
Proof using.
  clear TOK. induction ms as [|m ms IH]; intros k K On; cbn [fold_left]; [rewrite app_nil_r; auto|].
  destruct (IH (link_s_send rr_encode [m] k) (server_send _ _ k [m] K On) On) as (H1 & H2 & H3 & H4). split; [exact H1|]. split; [exact H2|]. split; [|exact H4].
  rewrite H3. cbn [link_s_send lk_s end_send en_sent]. rewrite <- app_assoc. reflexivity.
Qed.
Lemma peer_outs a e s s' os : act s (VPeer a e) = (s', os) -> forall z, In z os -> match z with ROpen _ _ | RAuthReply _ _ => False | _ => True end.
Proof using.
  clear TOK. cbn [rp_act]. unfold rp_peer. destruct (mget a (rp_peers s)) as [p|]; [|intros H; inversion H; subst; intros ? []].
  destruct (pr_open p); [|intros H; inversion H; subst; intros ? []].
  destruct (peer_iter min sco e (rp_os s) (rp_next_rid s) p (rp_tx s) (rp_failed s)) as [[[[p' tx] fl] o1] r] eqn:P.
  assert (O1 : forall z, In z o1 -> match z with ROpen _ _ | RAuthReply _ _ => False | _ => True end).
  { revert P. unfold peer_iter. set (q := if pr_flush p && p_flush_ok e then _ else p). clearbody q.
    destruct (if p_ready e then pr_egress q else []) as [|m rest].
    - destruct (pick (p_pref e) (rp_os s) (pr_pending q)) as [[r0 id]|].
      + destruct (mget r0 (rp_os s)) as [[|x|]|]; [|destruct (rep_outgoing min sco id x)|..]; try destruct (p_next e); intros H; inversion H; subst; intros z Hz; repeat (destruct Hz as [<-|Hz]); cbn; auto; contradiction.
      + destruct (p_next e); intros H; inversion H; subst; intros z [].
    - destruct (p_send e); intros H; inversion H; subst; intros z [<-|[]]; exact I. }
  destruct r as [|m| | |]; try (intros H; inversion H; subst; exact O1).
  - match goal with |- context [rp_on_request D ?s1 a (pr_cid p) m] => set (sx := s1) end. destruct (rp_on_request D sx a (pr_cid p) m) as [s2 o2] eqn:Q. intros H; inversion H; subst.
    intros z Hz. apply in_app_or in Hz. destruct Hz as [Hz|Hz]; [apply O1; exact Hz|].
    unfold rp_on_request in Q. destruct (try_decompress D _ _); [destruct (rp_dropped sx || _)|]; inversion Q; subst; repeat (destruct Hz as [<-|Hz]); cbn; auto; contradiction.
  - intros H; inversion H; subst. intros z Hz. apply in_app_or in Hz. destruct Hz as [Hz|[<-|[]]]; [apply O1; exact Hz|exact I].
Qed.

Lemma peer_inv addr e input y : YI y -> YI (y_peer max min auth sco D addr e input y).
Proof using.
  clear TOK. intros YY. unfold y_peer. destruct (mget addr (rp_peers (sy_s y))) as [p|] eqn:Gp; [|exact YY].
  pose proof YY as (C & L & S). pose proof S as (S1 & S2 & S3 & S4 & S5 & S6 & S7).
  unfold link_of. destruct (mget (pr_cid p) (sy_cids y)) as [l|] eqn:Hc.
  2: { apply serve_quiet; [exact YY|discriminate|]. intros c l Hs. cbn [subject] in Hs. rewrite Gp in Hs. destruct (pr_open p); inversion Hs; subst. congruence. }
  destruct (mget l (sy_links y)) as [lk|] eqn:G; [|destruct (S3 _ _ Hc) as [_ (k0 & G0)]; congruence].
  assert (Lk : LOK lk) by (eapply L; eauto). set (cid := pr_cid p) in *.
  destruct (pr_open p) eqn:Op; cbn [andb].
  2: { apply serve_quiet; [exact YY|discriminate|]. intros c l' Hs. cbn [subject] in Hs. rewrite Gp, Op in Hs. discriminate. }
  assert (Sub : forall e', subject (sy_s y) (VPeer addr e') = Some cid) by (intros e'; cbn [subject]; rewrite Gp, Op; reflexivity).
  assert (Opn : opn (sy_s y) cid) by (exists addr, p; auto).
  destruct (S6 _ _ _ Hc G) as (B1 & B2 & B3 & B4). specialize (B4 Opn).
  assert (Npd : ~ pend (sy_s y) cid) by (intros X; pose proof (fresh_fields _ (B3 X)) as (_ & _ & _ & _ & _ & F); congruence).
  (* the general scheme *)
  assert (Fin : forall e' k1 s' os, act (sy_s y) (VPeer addr e') = (s', os) -> cview k1 = cview lk -> LOK k1 -> en_on (lk_s k1) = true ->
     en_sent (lk_s k1) = en_sent (lk_s lk) -> en_items (lk_s k1) = en_items (lk_s lk) ++ inc_on cid os ->
     let ls' := fold_left (route (sy_cids y)) os (mset l k1 (sy_links y)) in
     CI (sy_c y) (sy_cevs y) (sy_clog y) (sy_cur y) (sy_task y) ls' /\ LI ls' /\ SI s' (sy_sevs y ++ [VPeer addr e']) (sy_slog y ++ os) (sy_backlog y) (sy_cids y) ls').
  { intros e' k1 s' os A Cv K1 On Se It.
    apply (serve_core _ _ _ _ _ _ _ _ _ _ _ (VPeer addr e') (mset l k1 (sy_links y)) s' os C L S ltac:(discriminate) A).
    - eapply same_view_set; eauto.
    - intros l' H. apply mget_set_ne. intros ->. eapply H; eauto.
    - intros c l' k0 k0' Hs Hc' G' G1'. rewrite Sub in Hs. inversion Hs; subst c. rewrite Hc in Hc'. inversion Hc'; subst l'. rewrite G in G'. inversion G'; subst k0. rewrite mget_set_eq in G1'. inversion G1'; subst k0'.
      cbn zeta. rewrite effs_send by (eapply peer_outs; exact A). destruct (sends_ok (tak_on cid os) k1 K1 On) as (H1 & H2 & H3 & H4).
      split; [exact H1|]. split; [rewrite H3, Se; reflexivity|]. split; [rewrite H4; exact It|]. split; [|intros _; exact H2].
      intros P. exfalso. destruct (act_conns _ _ _ _ _ _ _ _ _ A) as (A1 & _). destruct (A1 _ P) as [P'|[P' _]]; [contradiction|discriminate]. }
  destruct (wants_next min sco e (sy_s y) p) eqn:W.
  - destruct (pipe_offers input (en_in (lk_s lk))) eqn:Of; [|exact YY].
    destruct (rr_poll input (lk_s lk)) as [r b] eqn:P. destruct (server_poll _ _ lk input r b Lk B4 Of P) as (P1 & P2 & P3 & P4 & P5).
    unfold y_serve, set_link. cbn [sy_c sy_s sy_links sy_backlog sy_cids sy_cur sy_task sy_cevs sy_clog sy_sevs sy_slog].
    destruct (act (sy_s y) (VPeer addr (with_pnext e (next_of r)))) as [s' os] eqn:A.
    destruct (Fin (with_pnext e (next_of r)) (mkLink (lk_c lk) b) s' os A) as (H1 & H2 & H3); try assumption; try reflexivity.
    + cbn [lk_s]. rewrite P3. f_equal. cbn [rp_act] in A. unfold rp_peer in A. rewrite Gp, Op in A. destruct (wants_ok _ _ _ W (next_of r)) as (p' & E). rewrite E in A.
      destruct r as [m|er| | |]; cbn [next_of] in A.
      * match type of A with context [rp_on_request D ?s1 addr (pr_cid p) m] => set (sx := s1) in * end. destruct (rp_on_request D sx addr (pr_cid p) m) as [s2 o2] eqn:Q. inversion A; subst. cbn [app].
        unfold rp_on_request in Q. fold cid in Q. destruct (try_decompress D _ _); [destruct (rp_dropped sx || _)|]; inversion Q; subst; cbn [inc_on flat_map]; destruct (eq_dec cid cid); try congruence; reflexivity.
      * inversion A; subst. reflexivity.
      * inversion A; subst. reflexivity.
      * inversion A; subst. reflexivity.
      * congruence.
    + split; [exact H1|]. split; [exact H2|exact H3].
  - unfold y_serve. destruct (act (sy_s y) (VPeer addr (with_pnext e NxPending))) as [s' os] eqn:A.
    assert (Same : forall x, mget x (mset l lk (sy_links y)) = mget x (sy_links y)) by (intros x; rewrite mget_set; destruct (eq_dec x l) as [->|]; [congruence|reflexivity]).
    assert (SameL : mset l lk (sy_links y) = sy_links y).
    { clear - G. induction (sy_links y) as [|[x v] ls IH]; [discriminate|]. cbn [mget mset] in *. destruct (eq_dec l x) as [->|]; [congruence|]. rewrite IH by exact G. reflexivity. }
    destruct (Fin (with_pnext e NxPending) lk s' os A) as (H1 & H2 & H3); try assumption; try reflexivity.
    + cbn [rp_act] in A. unfold rp_peer in A. rewrite Gp, Op in A. destruct (peer_iter min sco (with_pnext e NxPending) (rp_os (sy_s y)) (rp_next_rid (sy_s y)) p (rp_tx (sy_s y)) (rp_failed (sy_s y))) as [[[[p' tx] fl] o1] r] eqn:Pi.
      destruct (not_wants _ _ _ _ _ _ _ _ W Pi cid) as (I0 & [->| ->]); inversion A; subst; [rewrite I0, app_nil_r; reflexivity|]. rewrite inc_on_app, I0. cbn. rewrite app_nil_r. reflexivity.
    + rewrite SameL in H1, H2, H3. split; [exact H1|]. split; [exact H2|exact H3].
Qed.

(** ** Every run *)
Lemma init_inv : YI sy_init.
Proof using.
  clear TOK. split; [|split].
  - split; [reflexivity|]. split; [reflexivity|]. cbn. split; [discriminate|]. split; [reflexivity|]. split; [discriminate|]. split; [discriminate|]. split; [reflexivity|]. split; [intros m (e & [] & _)|intros []].
  - intros l k H. discriminate.
  - split; [reflexivity|]. split; [intros c c' l H; discriminate|]. split; [discriminate|]. split; [intros l []|]. split; [discriminate|]. split; [discriminate|]. intros; split; reflexivity.
Qed.
Lemma step_inv y ev : YI y -> YI (y_step o token cco max min auth sco D y ev).
Proof using TOK.
  intros Y. destruct ev as [c p| |ok|e f tio nio|from|k r|k i b|a e i| |rid x|rid|]; cbn [y_step].
  - apply call_inv; [discriminate|exact Y].
  - apply call_inv; [discriminate|exact Y].
  - apply connected_inv; exact Y.
  - apply client_inv; exact Y.
  - apply accept_inv; exact Y.
  - apply conn_inv; exact Y.
  - apply auth_inv; exact Y.
  - apply peer_inv; exact Y.
  - apply app_inv; [exact I|exact Y].
  - apply app_inv; [exact I|exact Y].
  - apply app_inv; [exact I|exact Y].
  - apply app_inv; [exact I|exact Y].
Qed.
Theorem y_inv evs : YI (y_run o token cco max min auth sco D evs).
Proof using TOK.
  unfold y_run. pose proof init_inv as H. revert H. generalize sy_init. induction evs as [|ev evs IH]; intros y H; [exact H|]. cbn [fold_left]. apply IH, step_inv, H.
Qed.
End Y.
