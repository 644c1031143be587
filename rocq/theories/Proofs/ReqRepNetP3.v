(** The joint model of a request and a reply socket: the invariant of the system. *)
From Coq Require Import ZArith Permutation.
From Verif Require Import Model.Base Model.Map Model.Framed Model.WireReqRep Model.WireAuth Model.Compression Model.Backoff Model.Handshake Model.ReqDriver Model.RepDriver Model.Net Model.ReqRepNet
  Spec.Wire Spec.Stream Spec.AuthSpec Spec.ReqSpec Spec.RepSpec
  Proofs.BaseP Proofs.MapP Proofs.FramedP2 Proofs.ReqRepP Proofs.AuthP Proofs.HandshakeP Proofs.HandshakeP2 Proofs.NetP
  Proofs.ReqDriverP Proofs.RepDriverP Proofs.RepDriverP2 Proofs.RepNetP Proofs.ReqRepNetP Proofs.ReqRepNetP2.
From Verif Require Proofs.T_Req.
Local Open Scope N_scope.

Lemma mset_mset (l : N) (a b : rlink) ls : mset l a (mset l b ls) = mset l a ls.
Proof. induction ls as [|[x v] ls IH]; cbn [mset]; [destruct (eq_dec l l); congruence|]. destruct (eq_dec l x) as [->|]; cbn [mset]; [destruct (eq_dec x x); congruence|]. destruct (eq_dec l x); [congruence|]. rewrite IH. reflexivity. Qed.
Lemma sents_set l ls k k' ms : numbered ls -> newest l ls -> mget l ls = Some k -> en_sent (lk_c k') = en_sent (lk_c k) ++ ms -> sents (mset l k' ls) = sents ls ++ ms.
Proof.
  intros Nm Nw G E. destruct (newest_last _ _ _ Nm Nw G) as (pre & -> & P). rewrite mset_last by exact P. rewrite !sents_app. cbn. rewrite E, !app_nil_r, app_assoc. reflexivity.
Qed.
Lemma numbered_set l ls k k' : numbered ls -> mget l ls = Some k -> numbered (mset l k' ls) /\ length (mset l k' ls) = length ls.
Proof.
  intros Nm G. assert (S : same_view (fun _ => tt) ls (mset l k' ls)) by (eapply same_view_set; [exact G|reflexivity]).
  split; [eapply numbered_view; eauto|eapply view_len; eauto].
Qed.

Section Y.
Variables (o : ropts) (token : option bytes) (cco : option compressor)
          (max : option N) (min : N) (auth : option (bytes -> bool)) (sco : option compressor) (D : decompressors).
Hypothesis TOK : forall t, token = Some t -> blen t < 2 ^ 32.
Notation LOK := (link_ok token auth).

Definition CI (c : rd) (cevs : list req_event) (clog : list out) (cur : option N) (task : option (N * bool)) (ls : list (N * rlink)) : Prop :=
  rd_run o cco D rd_init cevs = (c, clog) /\
  numbered ls /\
  (rd_done c = false -> rd_conn c = RActive -> exists l, cur = Some l) /\
  (forall b, rd_conn c = RInactive b -> cur = None) /\
  (forall l, cur = Some l -> newest l ls /\ exists k, mget l ls = Some k /\ en_on (lk_c k) = true) /\
  (forall l ok, task = Some (l, ok) -> cur = None /\ newest l ls /\ exists k, mget l ls = Some k /\ en_on (lk_c k) = false) /\
  sents ls = taken clog /\
  (forall m, response_seen cevs m -> exists l k, mget l ls = Some k /\ In m (en_items (lk_c k))) /\
  (In Connected clog -> exists l k, mget l ls = Some k /\ en_on (lk_c k) = true).
Definition LI (ls : list (N * rlink)) : Prop := forall l k, mget l ls = Some k -> LOK k.
Definition SI (s : rp) (sevs : list rp_event) (slog : list rout) (backlog : list N) (cids : list (N * N)) (ls : list (N * rlink)) : Prop :=
  rp_run max min auth sco D rp_init sevs = (s, slog) /\
  cinj cids /\
  (forall cid l, mget cid cids = Some l -> cid < rp_next_cid s /\ exists k, mget l ls = Some k) /\
  (forall l, In l backlog -> (exists k, mget l ls = Some k) /\ forall cid, mget cid cids <> Some l) /\
  (forall l k, mget l ls = Some k -> (forall cid, mget cid cids <> Some l) -> fresh_s k) /\
  (forall cid l k, mget cid cids = Some l -> mget l ls = Some k ->
     en_sent (lk_s k) = tak_on cid slog /\ en_items (lk_s k) = inc_on cid slog /\ (pend s cid -> fresh_s k) /\ (opn s cid -> en_on (lk_s k) = true)) /\
  (forall c, rp_next_cid s <= c -> tak_on c slog = [] /\ inc_on c slog = []).
Definition YI (y : sys) : Prop :=
  CI (sy_c y) (sy_cevs y) (sy_clog y) (sy_cur y) (sy_task y) (sy_links y) /\ LI (sy_links y) /\
  SI (sy_s y) (sy_sevs y) (sy_slog y) (sy_backlog y) (sy_cids y) (sy_links y).

(** ** Transfer *)
Lemma CI_view c cevs clog cur task ls ls' : CI c cevs clog cur task ls -> same_view cview ls ls' -> CI c cevs clog cur task ls'.
Proof using.
  clear TOK. intros (C1 & C2 & C3 & C4 & C5 & C6 & C7 & C8 & C9) V. pose proof (view_len _ _ _ V) as Ln.
  split; [exact C1|]. split; [eapply numbered_view; eauto|]. split; [exact C3|]. split; [exact C4|].
  assert (G : forall l k, mget l ls = Some k -> exists k', mget l ls' = Some k' /\ en_on (lk_c k') = en_on (lk_c k) /\ en_items (lk_c k') = en_items (lk_c k)).
  { intros l k H. destruct (view_get' _ _ _ _ _ V H) as (k' & H' & E). apply noin_inv in E. exists k'. intuition. }
  split; [|split; [|split; [|split]]].
  - intros l E. destruct (C5 l E) as (N1 & k & G1 & On). split; [unfold newest in *; rewrite Ln; exact N1|]. destruct (G _ _ G1) as (k' & G2 & E2 & _). exists k'. split; [exact G2|congruence].
  - intros l ok E. destruct (C6 l ok E) as (Cn & N1 & k & G1 & On). split; [exact Cn|]. split; [unfold newest in *; rewrite Ln; exact N1|]. destruct (G _ _ G1) as (k' & G2 & E2 & _). exists k'. split; [exact G2|congruence].
  - rewrite (view_sents ls ls'); [exact C7|apply numbered_nodup; exact C2|exact V].
  - intros m Hm. destruct (C8 m Hm) as (l & k & G1 & I1). destruct (G _ _ G1) as (k' & G2 & _ & E2). exists l, k'. split; [exact G2|rewrite E2; exact I1].
  - intros Hc. destruct (C9 Hc) as (l & k & G1 & On). destruct (G _ _ G1) as (k' & G2 & E2 & _). exists l, k'. split; [exact G2|congruence].
Qed.
Lemma fresh_view k k' : sview k' = sview k -> fresh_s k -> fresh_s k'.
Proof using. unfold fresh_s. congruence. Qed.
Lemma SI_view s sevs slog backlog cids ls ls' : SI s sevs slog backlog cids ls -> same_view sview ls ls' -> SI s sevs slog backlog cids ls'.
Proof using.
  clear TOK. intros (S1 & S2 & S3 & S4 & S5 & S6 & S7) V.
  split; [exact S1|]. split; [exact S2|].
  assert (Ex : forall l, (exists k, mget l ls = Some k) -> exists k, mget l ls' = Some k).
  { intros l (k & H). destruct (view_get' _ _ _ _ _ V H) as (k' & H' & _). eauto. }
  split; [intros cid l H; destruct (S3 cid l H) as [A B]; auto|]. split; [intros l H; destruct (S4 l H) as [A B]; auto|].
  split; [|split; [|exact S7]].
  - intros l k G Hn. destruct (view_get _ _ _ _ _ V G) as (k0 & G0 & E). eapply fresh_view; [exact E|]. eapply S5; eauto.
  - intros cid l k Hc G. destruct (view_get _ _ _ _ _ V G) as (k0 & G0 & E). destruct (S6 _ _ _ Hc G0) as (A & B & C & Dd). pose proof E as E'. apply noin_inv in E'. destruct E' as (_ & _ & E3 & _ & E5 & E6).
    rewrite E3, E5, E6. split; [exact A|]. split; [exact B|]. split; [|exact Dd]. intros P. eapply fresh_view; eauto.
Qed.

(** ** The client's application *)
Lemma call_conn ev c c' os : (forall e, ev <> EIter e) -> rd_step o cco D c ev = (c', os) ->
  rd_conn c' = rd_conn c /\ rd_done c' = rd_done c /\ taken os = [] /\ ~ In Connected os.
Proof using.
  clear TOK. intros Ne. destruct ev as [cl p| |e]; cbn [rd_step]; [destruct (rd_done c || rd_dropped c)|..|exfalso; eapply Ne; reflexivity]; intros H; inversion H; subst; repeat split; try tauto; intros X; repeat destruct X as [X|X]; try discriminate; tauto.
Qed.
Lemma call_inv ev y : (forall e, ev <> EIter e) -> YI y -> YI (y_call o cco D ev y).
Proof using.
  clear TOK. intros Ne ((C1 & C2 & C3 & C4 & C5 & C6 & C7 & C8 & C9) & L & S). unfold y_call. destruct (rd_step o cco D (sy_c y) ev) as [c' os] eqn:St.
  destruct (call_conn _ _ _ _ Ne St) as (E1 & E2 & E3 & E4). split; [|split; [exact L|exact S]]. cbn [sy_c sy_cevs sy_clog sy_cur sy_task sy_links].
  split; [rewrite ReqDriverP.run_snoc, C1, St; reflexivity|]. split; [exact C2|]. rewrite E1, E2. split; [exact C3|]. split; [exact C4|]. split; [exact C5|]. split; [exact C6|].
  split; [rewrite taken_app, E3, app_nil_r; exact C7|]. split.
  - intros m (e & He & Hn). apply in_app_or in He. destruct He as [He|[He|[]]]; [apply C8; exists e; auto|exfalso; eapply Ne; eauto].
  - intros Hc. apply in_app_or in Hc. destruct Hc as [Hc|Hc]; [auto|contradiction].
Qed.

Lemma conn_ok evs s L : rd_run o cco D rd_init evs = (s, L) -> T_Req.conn_inv s.
Proof using.
  clear TOK. revert s L. induction evs as [|ev evs IH] using rev_ind; intros s L R.
  - inversion R; subst. intros H. discriminate.
  - rewrite ReqDriverP.run_snoc in R. destruct (rd_run o cco D rd_init evs) as [s1 o1] eqn:R1. destruct (rd_step o cco D s1 ev) as [s2 o2] eqn:St. inversion R; subst.
    eapply T_Req.conn_step; [eapply IH; reflexivity|exact St].
Qed.

(** ** A new connection *)
Lemma connected_inv ok y : YI y -> YI (y_connected token ok y).
Proof using.
  clear TOK. intros YY. unfold y_connected.
  destruct (negb (rd_done (sy_c y)) && rd_task (sy_c y)) eqn:B; [|exact YY].
  apply andb_true_iff in B. destruct B as [B1 B2]. apply negb_true_iff in B1.
  destruct (sy_task y) as [t|] eqn:T; [exact YY|].
  destruct YY as ((C1 & C2 & C3 & C4 & C5 & C6 & C7 & C8 & C9) & L & (S1 & S2 & S3 & S4 & S5 & S6 & S7)).
  assert (Cn : sy_cur y = None).
  { destruct (rd_conn (sy_c y)) as [|b] eqn:Rc; [|eapply C4; reflexivity]. pose proof (conn_ok _ _ _ C1 Rc B1). congruence. }
  set (l0 := sy_fresh y). set (k0 := link_c_greet (hello token ok) link0).
  assert (El : N.of_nat (length (sy_links y)) = l0) by reflexivity.
  destruct (numbered_new (sy_links y) k0 C2) as (Nm & Nn & Ap). rewrite El in Nm, Nn, Ap. clearbody l0.
  assert (Get : forall l, mget l (mset l0 k0 (sy_links y)) = if eq_dec l l0 then Some k0 else mget l (sy_links y)) by (intros; apply mget_set).
  destruct (link_ok_new token auth ok) as [Lk Fr]. fold k0 in Lk, Fr.
  assert (Old : forall l k, mget l (sy_links y) = Some k -> mget l (mset l0 k0 (sy_links y)) = Some k).
  { intros l k G. rewrite Get. destruct (eq_dec l l0) as [->|]; [congruence|exact G]. }
  split; [|split]; cbn [sy_c sy_cevs sy_clog sy_cur sy_task sy_links sy_s sy_sevs sy_slog sy_backlog sy_cids].
  - split; [exact C1|]. split; [exact Nm|]. split; [exact C3|]. split; [exact C4|]. split; [rewrite Cn; discriminate|]. split.
    + intros l b E. injection E as <- <-. split; [exact Cn|]. split; [unfold newest; rewrite Ap, app_length; cbn [length]; lia|]. exists k0. rewrite Get. destruct (eq_dec l0 l0); [|congruence]. split; reflexivity.
    + split; [rewrite Ap, sents_app, C7; cbn; apply app_nil_r|]. split.
      * intros m Hm. destruct (C8 m Hm) as (l & k & G & I1). exists l, k. auto.
      * intros Hc. destruct (C9 Hc) as (l & k & G & I1). exists l, k. auto.
  - intros l k G. rewrite Get in G. destruct (eq_dec l l0); [inversion G; subst; exact Lk|eapply L; eauto].
  - split; [exact S1|]. split; [exact S2|]. split; [intros cid l H; destruct (S3 _ _ H) as [A (k & B)]; split; [exact A|]; exists k; auto|].
    assert (Un : forall cid, mget cid (sy_cids y) <> Some l0) by (intros cid H; destruct (S3 _ _ H) as [_ (k & B)]; congruence).
    split; [|split; [|split; [|exact S7]]].
    + intros l H. apply in_app_or in H. destruct H as [H|[<-|[]]]; [destruct (S4 _ H) as [(k & A) B]; split; [exists k; auto|exact B]|]. split; [|exact Un]. exists k0. rewrite Get. destruct (eq_dec l0 l0); [reflexivity|congruence].
    + intros l k G Hn. rewrite Get in G. destruct (eq_dec l l0); [inversion G; subst; exact Fr|eapply S5; eauto].
    + intros cid l k Hc G. rewrite Get in G. destruct (eq_dec l l0) as [->|]; [exfalso; eapply Un; eauto|eapply S6; eauto].
Qed.

(** ** An iteration of the client *)
Lemma flush_conn e c : rd_conn (rd_do_flush o e c) = rd_conn c /\ rd_task (rd_do_flush o e c) = rd_task c /\ rd_done (rd_do_flush o e c) = rd_done c.
Proof using. clear TOK. unfold rd_do_flush. destruct (rd_flush c); [|auto]. destruct (match ro_flush_interval o with Some _ => e_flush_tick e | None => true end); [|auto]. destruct (rd_conn c) eqn:E; [|rewrite E; auto]. destruct (e_flush_ok e); [cbn|]; auto. Qed.
Lemma task_conn e c s2 o2 : rd_do_task e c = (s2, o2) ->
  rd_conn s2 = (if rd_task c then match e_task e with Some true => RActive | _ => rd_conn c end else rd_conn c) /\ taken o2 = [] /\
  (forall b, rd_conn s2 = RInactive b -> ~ In Connected o2).
Proof using.
  clear TOK. unfold rd_do_task. destruct (rd_task c); [|intros H; inversion H; subst; repeat split; intros b _ []].
  destruct (e_task e) as [[|]|]; intros H; inversion H; subst; repeat split; intros b Hb X; cbn in Hb; try discriminate; repeat destruct X as [X|X]; try discriminate; tauto.
Qed.
Lemma finish_quiet s : taken (snd (rd_finish s)) = [] /\ ~ In Connected (snd (rd_finish s)).
Proof using.
  clear. assert (X : forall z, In z (snd (rd_finish s)) -> match z with Connected | Handed _ _ => False | _ => True end).
  { intros z H. unfold rd_finish in H. cbn [snd] in H. repeat (apply in_app_or in H; destruct H as [H|H]); try (apply in_map_iff in H; destruct H as (p & <- & _); exact I).
    all: repeat destruct H as [<-|H]; try exact I; try contradiction. }
  split; [|intros H; exact (X _ H)]. induction (snd (rd_finish s)) as [|z zs IH]; [reflexivity|]. change (z :: zs) with ([z] ++ zs). rewrite taken_app, IH by (intros; apply X; right; assumption).
  specialize (X z (or_introl eq_refl)). destruct z; try reflexivity. contradiction.
Qed.
Lemma inactive_quiet e b s s' os ctl : rd_conn s = RInactive b -> rd_do_inactive e b s = (s', os, ctl) -> (exists b', rd_conn s' = RInactive b') /\ taken os = [] /\ ~ In Connected os.
Proof using.
  clear TOK. intros E. unfold rd_do_inactive. destruct (bo_poll (e_now e) b) as [b' [n| | |]].
  - destruct (rd_task s); intros H; inversion H; subst; cbn; repeat split; eauto; intros X; repeat destruct X as [X|X]; try discriminate; tauto.
  - intros H. pose proof (finish_quiet (set_conn s (rd_task s) (RInactive b'))) as Q. cbn in H. inversion H; subst. split; [cbn; eauto|exact Q].
  - intros H; inversion H; subst. cbn. repeat split; eauto.
  - intros H. pose proof (finish_quiet s) as Q. cbn in H. inversion H; subst. split; [cbn; eauto|exact Q].
Qed.
Lemma iter_quiet e c b s' os : rd_done c = false -> rd_conn (fst (rd_do_task e (rd_do_flush o e c))) = RInactive b -> rd_step o cco D c (EIter e) = (s', os) ->
  (exists b', rd_conn s' = RInactive b') /\ taken os = [] /\ ~ In Connected os.
Proof using.
  clear TOK. intros Dn Cn. cbn [rd_step]. rewrite Dn. unfold rd_iter. destruct (rd_do_task e (rd_do_flush o e c)) as [s2 o2] eqn:T. cbn [fst] in Cn. rewrite Cn.
  destruct (rd_do_inactive e b s2) as [[s3 o3] ctl] eqn:I. intros H; inversion H; subst. destruct (inactive_quiet _ _ _ _ _ _ Cn I) as (X1 & X2 & X3). split; [exact X1|].
  apply task_conn in T. destruct T as (_ & T1 & T2). rewrite taken_app, X2, app_nil_r. split; [exact T1|]. intros Hc. apply in_app_or in Hc. destruct Hc as [Hc|Hc]; [exact (T2 _ Cn Hc)|contradiction].
Qed.

(** The link of the client that is in use changes; nothing else. *)
Lemma client_core c cevs clog cur task ls s sevs slog backlog cids l k k3 ms ev c' os :
  CI c cevs clog cur task ls -> LI ls -> SI s sevs slog backlog cids ls ->
  newest l ls -> mget l ls = Some k -> LOK k3 -> sview k3 = sview k -> en_on (lk_c k3) = true ->
  en_sent (lk_c k3) = en_sent (lk_c k) ++ ms -> (exists is, en_items (lk_c k3) = en_items (lk_c k) ++ is) ->
  rd_step o cco D c ev = (c', os) -> taken os = ms -> (forall m, response_seen [ev] m -> In m (en_items (lk_c k3))) ->
  (forall task', (task' = None) ->
   CI c' (cevs ++ [ev]) (clog ++ os) (match rd_conn c' with RActive => Some l | RInactive _ => None end) task' (mset l k3 ls)) /\
  LI (mset l k3 ls) /\ SI s sevs slog backlog cids (mset l k3 ls).
Proof using.
  clear TOK. intros (C1 & C2 & C3 & C4 & C5 & C6 & C7 & C8 & C9) L S Nw G Lk Sv On Se (is & Is) St Tk Rs.
  destruct (numbered_set l ls k k3 C2 G) as [Nm Ln].
  split; [|split].
  - intros task' ->. split; [rewrite ReqDriverP.run_snoc, C1, St; reflexivity|]. split; [exact Nm|].
    split; [intros _ ->; eauto|]. split; [intros b ->; reflexivity|]. split; [|split; [discriminate|split; [|split]]].
    + intros l' H. destruct (rd_conn c'); [|discriminate]. inversion H; subst l'. split; [unfold newest in *; rewrite Ln; exact Nw|]. exists k3. rewrite mget_set_eq. auto.
    + rewrite (sents_set l ls k k3 ms C2 Nw G Se), taken_app, C7, Tk. reflexivity.
    + intros m (e & He & Hn). apply in_app_or in He. destruct He as [He|He].
      * destruct (C8 m) as (l1 & k1 & G1 & I1); [exists e; auto|]. destruct (N.eq_dec l1 l) as [->|Ne].
        -- exists l, k3. rewrite mget_set_eq. split; [reflexivity|]. rewrite Is. apply in_or_app; left. congruence.
        -- exists l1, k1. rewrite mget_set_ne by exact Ne. auto.
      * exists l, k3. rewrite mget_set_eq. split; [reflexivity|]. apply Rs. exists e; auto.
    + intros _. exists l, k3. rewrite mget_set_eq. auto.
  - intros l1 k1. rewrite mget_set. destruct (eq_dec l1 l); [intros H; inversion H; subst; exact Lk|apply L].
  - eapply SI_view; [exact S|]. eapply same_view_set; eauto.
Qed.

Lemma handed_incoming sevs s slog : rp_run max min auth sco D rp_init sevs = (s, slog) -> forall cid, inc_on cid slog = [] -> tak_on cid slog = [].
Proof using.
  clear TOK. intros R cid I. destruct (run_inv2 max min auth sco D sevs s slog R) as (_ & _ & _ & (F1 & _ & _ & _ & F5 & _) & _).
  destruct (tak_on cid slog) as [|m ms] eqn:T; [reflexivity|exfalso].
  assert (H : In m (handed_on cid slog)).
  { assert (H : In (RHanded cid m true) slog) by (apply in_tak; rewrite T; left; reflexivity). unfold handed_on. apply in_flat_map. eexists. split; [exact H|]. cbn. destruct (eq_dec cid cid); [left; reflexivity|congruence]. }
  destruct (F5 cid) as [rest E]. assert (Q : In m (map snd (queued_on cid slog))) by (rewrite E; apply in_or_app; left; exact H).
  apply in_map_iff in Q. destruct Q as ((r & m') & _ & Q). unfold queued_on in Q. apply in_flat_map in Q. destruct Q as (x & Hx & Q). destruct x; try contradiction. destruct (eq_dec cid0 cid); [|contradiction]. subst.
  apply F1 in Hx. destruct Hx as (a & req & x & Hi & _). assert (X : In req (inc_on cid slog)) by (apply in_inc; eauto). rewrite I in X. contradiction.
Qed.

Lemma mapped_dec (cids : list (N * N)) l : (exists cid, mget cid cids = Some l) \/ (forall cid, mget cid cids <> Some l).
Proof using.
  clear TOK. destruct (existsb (fun c => match mget c cids with Some l' => l' =? l | None => false end) (mkeys cids)) eqn:Eb.
  - left. apply existsb_exists in Eb. destruct Eb as (cid & _ & Eb). destruct (mget cid cids) as [l2|] eqn:G2; [|discriminate]. apply N.eqb_eq in Eb. subst. eauto.
  - right. intros cid H. assert (K : In cid (mkeys cids)) by (apply mget_keys; congruence).
    assert (F : existsb (fun c => match mget c cids with Some l' => l' =? l | None => false end) (mkeys cids) = true); [|congruence].
    apply existsb_exists. exists cid. split; [exact K|]. rewrite H. apply N.eqb_refl.
Qed.

(** Nothing was sent by the server on a link on which the client sent nothing. *)
Lemma quiet_server y l k : YI y -> mget l (sy_links y) = Some k -> en_sent (lk_c k) = [] -> en_sent (lk_s k) = [].
Proof using.
  clear TOK. intros (C & L & (S1 & S2 & S3 & S4 & S5 & S6 & S7)) G Se. pose proof (no_items_s _ _ _ (L _ _ G) Se) as It.
  destruct (mapped_dec (sy_cids y) l) as [(cid & Hc)|Hn].
  - destruct (S6 _ _ _ Hc G) as (A & B & _). rewrite A. eapply handed_incoming; [exact S1|congruence].
  - pose proof (fresh_fields _ (S5 _ _ G Hn)) as F. apply F.
Qed.

Lemma sent_taken os : sent_frames os = taken os. Proof using. reflexivity. Qed.

Lemma client_inv e fails tio nio y : YI y -> YI (y_client o token cco D e fails tio nio y).
Proof using.
  clear TOK. intros YY. unfold y_client. destruct (rd_done (sy_c y)) eqn:Dn; [exact YY|].
  destruct (y_task token fails tio y) as [[tk links1]|] eqn:T; [|exact YY].
  pose proof YY as (C & L & S). pose proof C as (C1 & C2 & C3 & C4 & C5 & C6 & C7 & C8 & C9).
  set (e1 := with_task e tk). set (s2 := fst (rd_do_task e1 (rd_do_flush o e1 (sy_c y)))).
  set (cur := match tk with Some true => option_map fst (sy_task y) | _ => sy_cur y end).
  (* the task *)
  assert (X : rd_conn s2 = (if rd_task (sy_c y) then match tk with Some true => RActive | _ => rd_conn (sy_c y) end else rd_conn (sy_c y))).
  { unfold s2. destruct (rd_do_task e1 (rd_do_flush o e1 (sy_c y))) as [sx ox] eqn:Tx. apply task_conn in Tx. destruct Tx as [Tx _]. destruct (flush_conn e1 (sy_c y)) as (F1 & F2 & _). cbn [fst]. rewrite Tx, F1, F2. reflexivity. }
  (* the link in use, after the task *)
  assert (Y : (tk <> Some true /\ links1 = sy_links y) \/
     (tk = Some true /\ rd_conn s2 = RActive /\ exists l k k1, cur = Some l /\ mget l (sy_links y) = Some k /\ newest l (sy_links y) /\ links1 = mset l k1 (sy_links y) /\
        LOK k1 /\ sview k1 = sview k /\ en_on (lk_c k1) = true /\ en_sent (lk_c k1) = en_sent (lk_c k) /\ en_items (lk_c k1) = en_items (lk_c k))).
  { clear X. unfold y_task in T. destruct (rd_task (sy_c y)) eqn:Tsk0; [|inversion T; subst; left; split; [discriminate|reflexivity]].
    destruct (sy_task y) as [[l ok]|] eqn:Tsk; [|inversion T; subst; left; split; [destruct fails; discriminate|reflexivity]].
    destruct (C6 l ok eq_refl) as (_ & Nw & k & G & Off). rewrite G in T. destruct (pipe_offers tio (en_in (lk_c k))) eqn:Of; [|discriminate].
    cbn [req_task] in T. destruct (auth_client token ok tio) as [[r w] rest] eqn:A. cbn [snd] in T.
    destruct r; inversion T; subst tk links1; try (left; split; [discriminate|reflexivity]).
    right. split; [reflexivity|]. split.
    { unfold s2. destruct (rd_do_task e1 (rd_do_flush o e1 (sy_c y))) as [sx ox] eqn:Tx. apply task_conn in Tx. destruct Tx as [Tx _]. destruct (flush_conn e1 (sy_c y)) as (F1 & F2 & _). cbn [fst]. rewrite Tx, F2, Tsk0. reflexivity. }
    exists l, k, (mkLink (end_on (end_hs tio rest (lk_c k))) (lk_s k)). cbn [option_map fst cur].
    split; [reflexivity|]. split; [exact G|]. split; [exact Nw|]. split; [reflexivity|]. split; [|repeat split].
    eapply client_hs; [exact (L _ _ G)|exact Off| |exact Of|exact A].
    eapply quiet_server; [exact YY|exact G|]. pose proof (L _ _ G) as (_ & _ & K3 & _). specialize (K3 Off). apply noin_eq in K3. apply K3. }
  (* no active connection *)
  destruct (rd_conn s2) as [|b] eqn:Ac.
  2: { destruct Y as [[Tk ->]|(_ & Y & _)]; [|congruence].
       set (ev := EIter (with_next e1 NxPending)). destruct (rd_step o cco D (sy_c y) ev) as [c' os] eqn:St.
       assert (Cn : cur = None). { unfold cur. destruct tk as [[|]|]; [congruence|..]; eapply C4; destruct (rd_task (sy_c y)); symmetry; exact X. }
       rewrite Cn. cbn [y_send]. destruct (iter_quiet (with_next e1 NxPending) (sy_c y) b c' os Dn Ac St) as ((b' & Cb) & Tn & Tc).
       split; [|split; [exact L|exact S]]. cbn [sy_c sy_cevs sy_clog sy_cur sy_task sy_links]. rewrite Cb.
       split; [rewrite ReqDriverP.run_snoc, C1, St; reflexivity|]. split; [exact C2|]. split; [rewrite Cb; discriminate|]. split; [reflexivity|]. split; [discriminate|].
       split; [|split; [rewrite taken_app, Tn, app_nil_r; exact C7|split]].
       - intros l ok H. destruct tk as [t|]; [discriminate|]. destruct (C6 l ok H) as (_ & Z). split; [reflexivity|exact Z].
       - intros m (e' & He & Hn). apply in_app_or in He. destruct He as [He|[He|[]]]; [apply C8; exists e'; auto|]. inversion He; subst. discriminate.
       - intros Hc. apply in_app_or in Hc. destruct Hc as [Hc|Hc]; [auto|contradiction]. }
  (* an active connection *)
  assert (Z : exists l k k1, cur = Some l /\ mget l (sy_links y) = Some k /\ newest l (sy_links y) /\ mget l links1 = Some k1 /\ (forall k2, mset l k2 links1 = mset l k2 (sy_links y)) /\
        LOK k1 /\ sview k1 = sview k /\ en_on (lk_c k1) = true /\ en_sent (lk_c k1) = en_sent (lk_c k) /\ en_items (lk_c k1) = en_items (lk_c k)).
  { destruct Y as [[Tk ->]|(-> & _ & l & k & k1 & Y1 & Y2 & Y3 & -> & Y5)].
    - assert (Ra : rd_conn (sy_c y) = RActive). { destruct (rd_task (sy_c y)); [destruct tk as [[|]|]; [congruence|..]|]; symmetry; exact X. }
      destruct (C3 Dn Ra) as [l Cl]. assert (Cu : cur = Some l) by (unfold cur; destruct tk as [[|]|]; [congruence|..]; exact Cl).
      destruct (C5 _ Cl) as (Nw & k & G & On). exists l, k, k. intuition. eapply L; exact G.
    - exists l, k, k1. split; [exact Y1|]. split; [exact Y2|]. split; [exact Y3|]. split; [apply mget_set_eq|]. split; [intros; apply mset_mset|exact Y5]. }
  clear Y X. destruct Z as (l & k & k1 & Cu & G & Nw & G1 & Ms & Lk & Sv & On & Se & It).
  rewrite Cu. cbn [y_next]. rewrite G1. destruct (pipe_offers nio (en_in (lk_c k1))) eqn:Of; [|exact YY].
  destruct (rr_poll nio (lk_c k1)) as [r c2] eqn:P. destruct (client_poll _ _ k1 nio r c2 Lk On Of P) as (P1 & P2 & P3 & P4 & P5).
  set (ev := EIter (with_next e1 (next_of r))). destruct (rd_step o cco D (sy_c y) ev) as [c' os] eqn:St.
  cbn [y_send]. rewrite mget_set_eq, mset_mset, Ms. rewrite sent_taken.
  set (k3 := link_c_send rr_encode (taken os) (mkLink c2 (lk_s k1))).
  destruct (client_core (sy_c y) (sy_cevs y) (sy_clog y) (sy_cur y) (sy_task y) (sy_links y) (sy_s y) (sy_sevs y) (sy_slog y) (sy_backlog y) (sy_cids y) l k k3 (taken os) ev c' os C L S Nw G) as (H1 & H2 & H3).
  - apply client_send; [exact P2|exact P5].
  - exact Sv.
  - exact P5.
  - cbn [k3 link_c_send lk_c end_send en_sent]. rewrite P4, Se. reflexivity.
  - cbn [k3 link_c_send lk_c end_send en_items]. rewrite P3, It. eauto.
  - exact St.
  - reflexivity.
  - intros m (e' & [He|[]] & Hn). inversion He; subst e'. cbn [with_next e_next] in Hn. cbn [k3 link_c_send lk_c end_send en_items]. rewrite P3. destruct r; cbn in Hn; inversion Hn; subst. apply in_or_app; right; left; reflexivity.
  - assert (Tn : match tk with Some _ => None | None => sy_task y end = None).
    { destruct tk as [t|]; [reflexivity|]. destruct (sy_task y) as [[l' ok]|] eqn:Tsk; [|reflexivity]. destruct (C6 l' ok eq_refl) as (Cn & _). unfold cur in Cu. congruence. }
    rewrite Tn. split; [|split]; cbn [sy_c sy_cevs sy_clog sy_cur sy_task sy_links sy_s sy_sevs sy_slog sy_backlog sy_cids]; [apply H1; reflexivity|exact H2|exact H3].
Qed.
End Y.
