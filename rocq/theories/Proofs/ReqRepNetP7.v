(** The joint model of a request and a reply socket: when nothing is left to do, every call has its result or its request is with the
    server's application. *)
From Coq Require Import ZArith Permutation Sorting.Sorted.
From Verif Require Import Model.Base Model.Map Model.Framed Model.WireReqRep Model.WireAuth Model.Compression Model.Backoff Model.Handshake Model.ReqDriver Model.RepDriver Model.Net Model.ReqRepNet
  Spec.Wire Spec.Stream Spec.AuthSpec Spec.CompressSpec Spec.ReqSpec Spec.RepSpec Spec.NetSpec
  Proofs.BaseP Proofs.MapP Proofs.FramedP2 Proofs.ReqRepP Proofs.AuthP Proofs.NetP
  Proofs.ReqDriverP Proofs.RepDriverP Proofs.RepDriverP2 Proofs.RepDriverP5 Proofs.RepDriverP6 Proofs.RepNetP Proofs.ReqRepNetP Proofs.ReqRepNetP2 Proofs.ReqRepNetP3 Proofs.ReqRepNetP4 Proofs.ReqRepNetP5 Proofs.ReqRepNetP6.
From Verif Require Proofs.T_Req Proofs.T_Rep Proofs.T_Compress.
Local Open Scope N_scope.

(** ** Everything written was read *)
Definition all_read (b : rend) : Prop := pp_todo (en_in b) = [] /\ fr_codec (en_fr b) = RRHeader /\ fr_buf (en_fr b) = [].
Lemma rencs_nil ms : rencs ms = [] -> ms = [].
Proof. destruct ms as [|m ms]; [reflexivity|]. cbn [encs map concat]. intros H. exfalso. apply app_eq_nil in H. destruct H as [H _]. exact (rr_nonempty m H). Qed.
Lemma rencs_app a b : rencs (a ++ b) = rencs a ++ rencs b.
Proof. unfold encs. rewrite map_app, concat_app. reflexivity. Qed.
Lemma dir_all (a b : rend) : rdir a b -> Forall rr_wf (en_sent a) ->
  (en_hs b = en_greet a \/ (en_hs b = [] /\ (en_greet a = [] \/ exists t, en_greet a = x01 :: t))) -> all_read b -> en_items b = en_sent a.
Proof.
  intros R W H (T & Cd & Bf). destruct (dir_items a b R W H) as [rest E]. destruct R as (D1 & D2 & D3 & D4).
  rewrite T, app_nil_r in D1. rewrite D3, Cd, Bf in D1. cbn [rr_held app] in D1. rewrite !app_nil_r in D1.
  assert (K : en_hs b = en_greet a -> en_items b = en_sent a).
  { intros X. rewrite X in D1. apply app_inv_head in D1. rewrite E, rencs_app in D1. rewrite <- (app_nil_r (rencs (en_items b))) in D1 at 1. apply app_inv_head in D1. symmetry in D1. apply rencs_nil in D1. subst rest. rewrite E, app_nil_r. reflexivity. }
  destruct H as [H|[H [G|(t & G)]]]; [apply K, H|apply K; congruence|].
  exfalso. rewrite H, G in D1. cbn [app] in D1.
  destruct (en_items b) as [|m ms]; cbn [encs map concat] in D1; [discriminate|]. destruct (rr_head m) as [u Hu]. rewrite Hu in D1. cbn [app] in D1. discriminate.
Qed.

(** ** The pending calls of the client *)
Section C.
Variables (o : ropts) (co : option compressor) (D : decompressors).
Lemma removed_get ids : forall p i v, mget i (fst (remove_timed_out ids p)) = Some v -> mget i p = Some v.
Proof.
  induction ids as [|id ids IH]; intros p i v; cbn [remove_timed_out]; [auto|]. destruct (mget id p) as [[t c]|] eqn:G; [|apply IH].
  specialize (IH (mdel id p) i v). destruct (remove_timed_out ids (mdel id p)) as [p' os]. cbn [fst] in *. intros H. apply IH in H. rewrite mget_del in H. destruct (eq_dec i id); [discriminate|exact H].
Qed.
Lemma ticks_get n now : forall s i v, mget i (rd_pending (fst (rd_ticks o n now s))) = Some v -> mget i (rd_pending s) = Some v.
Proof.
  induction n as [|n IH]; intros s i v; cbn [rd_ticks]; [auto|]. destruct (rd_check_timeouts o now s) as [s1 o1] eqn:C. specialize (IH s1 i v). destruct (rd_ticks o n now s1) as [s2 o2]. cbn [fst] in *.
  intros H. apply IH in H. clear IH. unfold rd_check_timeouts in C. pose proof (removed_get (timed_out_ids o now (rd_pending s)) (rd_pending s) i v) as R. destruct (remove_timed_out _ _) as [p' os]. inversion C; subst. apply R, H.
Qed.
Lemma ticks_log n now : forall s, accepted (snd (rd_ticks o n now s)) = [] /\ taken (snd (rd_ticks o n now s)) = [].
Proof.
  induction n as [|n IH]; intros s; cbn [rd_ticks]; [auto|]. destruct (rd_check_timeouts o now s) as [s1 o1] eqn:C. specialize (IH s1). destruct (rd_ticks o n now s1) as [s2 o2]. cbn [snd] in *.
  rewrite accepted_app, taken_app. destruct IH as [-> ->]. unfold rd_check_timeouts in C. destruct (accepted_silent_timeouts (timed_out_ids o now (rd_pending s)) (rd_pending s)) as (E1 & _ & E2). destruct (remove_timed_out _ _) as [p' os].
  cbn [snd] in *. inversion C; subst. rewrite !app_nil_r. cbn [accepted taken flat_map app]. auto.
Qed.

Lemma flush_pending e s : rd_pending (rd_do_flush o e s) = rd_pending s.
Proof. unfold rd_do_flush. destruct (rd_flush s); [|reflexivity]. destruct (match ro_flush_interval o with Some _ => e_flush_tick e | None => true end); [|reflexivity]. destruct (rd_conn s); [|reflexivity]. destruct (e_flush_ok e); reflexivity. Qed.
Lemma task_pending e s : rd_pending (fst (rd_do_task e s)) = rd_pending s /\ accepted (snd (rd_do_task e s)) = [] /\ taken (snd (rd_do_task e s)) = [].
Proof. unfold rd_do_task. destruct (rd_task s); [|auto]. destruct (e_task e) as [[|]|]; cbn; auto. Qed.

Lemma iter_pending e s s' os i v : rd_done s = false -> rd_step o co D s (EIter e) = (s', os) -> mget i (rd_pending s') = Some v ->
  (mget i (rd_pending s) = Some v /\ forall m, rd_conn (fst (rd_do_task e (rd_do_flush o e s))) = RActive -> e_next e = NxMsg m -> rr_id m <> i) \/
  (exists m c, accepted os = [(c, m)] /\ rr_id m = i /\ taken os = [] /\ forall m, e_next e <> NxMsg m).
Proof.
  intros Dn. cbn [rd_step]. rewrite Dn. unfold rd_iter. destruct (task_pending e (rd_do_flush o e s)) as (P & A & T). rewrite flush_pending in P.
  destruct (rd_do_task e (rd_do_flush o e s)) as [s2 o2]. cbn [fst snd] in *. clear Dn. rewrite <- P. clear P s.
  destruct (rd_conn s2) as [|b] eqn:Cn.
  - destruct (rd_do_active o co D e s2) as [[s3 o3] ctl] eqn:Ac. intros H; inversion H; subst s3 os. clear H. intros G.
    assert (K : (mget i (rd_pending s2) = Some v /\ forall m, e_next e = NxMsg m -> rr_id m <> i) \/ (exists m c, accepted o3 = [(c, m)] /\ rr_id m = i /\ taken o3 = [] /\ forall m, e_next e <> NxMsg m)).
    { revert Ac. unfold rd_do_active. destruct (e_next e) as [m| | |] eqn:Nx.
      - destruct (rd_on_message D (e_now e) s2 m) as [s4 o4] eqn:M. intros H; inversion H; subst s4 o4 ctl. clear H. left. revert M. unfold rd_on_message.
        destruct (mget (rr_id m) (rd_pending s2)) as [[t c]|] eqn:Gm.
        + assert (X : mget i (mdel (rr_id m) (rd_pending s2)) = Some v -> mget i (rd_pending s2) = Some v /\ forall m0, NxMsg m = NxMsg m0 -> rr_id m0 <> i).
          { rewrite mget_del. destruct (eq_dec i (rr_id m)); [discriminate|]. intros X. split; [exact X|]. intros m0 E. inversion E; subst. congruence. }
          destruct (try_decompress D (rr_ctype m) (rr_payload m)); intros M; inversion M; subst; apply X; exact G.
        + intros M; inversion M; subst. split; [exact G|]. intros m0 E. inversion E; subst. intros <-. congruence.
      - intros H; inversion H; subst. left. split; [exact G|discriminate].
      - intros H; inversion H; subst. discriminate G.
      - destruct (if e_ready e then rd_egress s2 else []) as [|m q].
        + pose proof (ticks_get (e_ticks e) (e_now e) s2) as Tg. pose proof (ticks_log (e_ticks e) (e_now e) s2) as [Ta Tt].
          destruct (rd_ticks o (e_ticks e) (e_now e) s2) as [s4 o4]. cbn [fst snd] in *.
          destruct (rd_do_command o co e s4) as [[s5 o5] c5] eqn:Cm. intros H; inversion H; subst s5 o3 ctl. clear H.
          revert Cm. unfold rd_do_command. destruct (e_recv e).
          * destruct (rd_cmds s4) as [|[c p] rest].
            -- destruct (rd_dropped s4); [destruct (e_close e)|]; intros H; inversion H; subst; [discriminate G|left; split; [apply Tg, G|discriminate]..].
            -- unfold rd_on_command. intros H; inversion H; subst. clear H. cbn [rd_pending] in G. rewrite mget_set in G. set (m := req_into_wire (rd_id s4) (req_outgoing (ro_min_compress o) co p)) in *.
               destruct (eq_dec i (rr_id m)) as [->|Ne]; [|left; split; [apply Tg, G|discriminate]].
               right. exists m, c. rewrite accepted_app, taken_app, Ta, Tt. cbn [app]. split; [destruct (mget (rr_id m) (rd_pending s4)) as [[? ?]|]; reflexivity|]. split; [reflexivity|]. split; [destruct (mget (rr_id m) (rd_pending s4)) as [[? ?]|]; reflexivity|discriminate].
          * intros H; inversion H; subst. left. split; [apply Tg, G|discriminate].
        + destruct (e_send e); intros H; inversion H; subst; left; (split; [exact G|discriminate]). }
    destruct K as [[K1 K2]|(m & c & K1 & K2 & K3 & K4)]; [left; split; [exact K1|intros m _; apply K2]|right].
    exists m, c. rewrite accepted_app, taken_app, A, T. auto.
  - destruct (rd_do_inactive e b s2) as [[s3 o3] ctl] eqn:In_. intros H; inversion H; subst s3 os. clear H. intros G. left. split; [|discriminate].
    revert In_. unfold rd_do_inactive. destruct (bo_poll (e_now e) b) as [b' [n| | |]]; [destruct (rd_task s2)| | |]; intros H; inversion H; subst; try exact G; discriminate G.
Qed.
Lemma call_pending ev s s' os : (forall e, ev <> EIter e) -> rd_step o co D s ev = (s', os) -> rd_pending s' = rd_pending s.
Proof. intros Ne. destruct ev as [c p| |e]; cbn [rd_step]; [destruct (rd_done s || rd_dropped s)|..|exfalso; eapply Ne; reflexivity]; intros H; inversion H; subst; reflexivity. Qed.
End C.

Section Y.
Variables (o : ropts) (token : option bytes) (cco : option compressor)
          (max : option N) (min : N) (auth : option (bytes -> bool)) (sco : option compressor) (D : decompressors).
Hypothesis TOK : forall t, token = Some t -> blen t < 2 ^ 32.
Notation YI := (YI o token cco max min auth sco D).
Notation LOK := (link_ok token auth).
Notation run := (y_run o token cco max min auth sco D).
Notation step := (y_step o token cco max min auth sco D).

(** ** The logs grow *)
Definition ext (y y' : sys) : Prop := (exists a, sy_clog y' = sy_clog y ++ a) /\ (exists b, sy_slog y' = sy_slog y ++ b).
Lemma ext_refl y : ext y y.
Proof using. clear TOK. split; exists []; rewrite app_nil_r; reflexivity. Qed.
Lemma serve_ext ev y : ext y (y_serve max min auth sco D ev y).
Proof using. clear TOK. unfold y_serve. destruct (rp_act max min auth sco D (sy_s y) ev) as [s' os]. split; [exists []; rewrite app_nil_r; reflexivity|exists os; reflexivity]. Qed.
Lemma step_ext y ev : ext y (step y ev).
Proof using.
  clear TOK. destruct ev as [c p| |ok|e f tio nio|from|k r|k i b|a e i| |rid x|rid|]; cbn [y_step]; try apply serve_ext.
  - unfold y_call. destruct (rd_step o cco D (sy_c y) _) as [c' os]. split; [exists os; reflexivity|exists []; rewrite app_nil_r; reflexivity].
  - unfold y_call. destruct (rd_step o cco D (sy_c y) _) as [c' os]. split; [exists os; reflexivity|exists []; rewrite app_nil_r; reflexivity].
  - unfold y_connected. destruct (_ && _); [destruct (sy_task y)|]; try apply ext_refl. apply (ext_refl y).
  - unfold y_client. destruct (rd_done (sy_c y)); [apply ext_refl|]. destruct (y_task token f tio y) as [[tk l1]|]; [|apply ext_refl].
    destruct (match rd_conn _ with RActive => _ | RInactive _ => _ end) as [[nx l2]|]; [|apply ext_refl].
    destruct (rd_step o cco D (sy_c y) _) as [c' os]. split; [exists os; reflexivity|exists []; rewrite app_nil_r; reflexivity].
  - unfold y_accept. destruct from as [l|]; [|apply serve_ext]. destruct (smem l (sy_backlog y)); [|apply ext_refl]. apply (serve_ext VAccept y).
  - unfold y_auth. destruct (nth_error _ _) as [[cid addr]|]; [|apply ext_refl]. destruct auth as [a|] eqn:Au; [|apply ext_refl]. rewrite <- Au. destruct (link_of cid y) as [[l lk]|]; [|apply serve_ext].
    destruct (pipe_offers i _); [|apply ext_refl]. destruct (auth_server a b i) as [[[id| | |] w] rest]; first [apply serve_ext | apply (serve_ext _ (set_link l _ y))].
  - unfold y_peer. destruct (mget a _) as [p|]; [|apply ext_refl]. destruct (link_of _ y) as [[l lk]|]; [|apply serve_ext].
    destruct (_ && _); [|apply serve_ext]. destruct (pipe_offers i _); [|apply ext_refl]. destruct (rr_poll i (lk_s lk)). apply (serve_ext _ (set_link l _ y)).
Qed.
Lemma ext_fit y y' : ext y y' -> frames_fit y' -> frames_fit y.
Proof using.
  clear TOK. intros [[a A] [b B]] [F1 F2]. rewrite A, B in *. split; intros m H.
  - apply F1. rewrite taken_app. apply in_or_app; left; exact H.
  - apply F2. unfold taken_frames in *. rewrite flat_map_app. apply in_or_app; left; exact H.
Qed.

(** ** Server steps do not touch the client's view of the links *)
Lemma serve_view ev y : same_view cview (sy_links y) (sy_links (y_serve max min auth sco D ev y)) /\ sy_c (y_serve max min auth sco D ev y) = sy_c y.
Proof using. clear TOK. unfold y_serve. destruct (rp_act max min auth sco D (sy_s y) ev) as [s' os]. cbn. split; [apply routes_view|reflexivity]. Qed.
Lemma serve_set_view ev y l lk a : mget l (sy_links y) = Some lk ->
  same_view cview (sy_links y) (sy_links (y_serve max min auth sco D ev (set_link l (mkLink (lk_c lk) a) y))) /\ sy_c (y_serve max min auth sco D ev (set_link l (mkLink (lk_c lk) a) y)) = sy_c y.
Proof using.
  clear TOK. intros G. destruct (serve_view ev (set_link l (mkLink (lk_c lk) a) y)) as [V E]. split; [|exact E]. eapply same_view_trans; [|exact V]. cbn [set_link sy_links]. eapply same_view_set; [exact G|reflexivity].
Qed.
Lemma link_of_get cid y l k : link_of cid y = Some (l, k) -> mget l (sy_links y) = Some k.
Proof using. clear TOK. unfold link_of. destruct (mget cid (sy_cids y)) as [l'|]; [|discriminate]. destruct (mget l' (sy_links y)) eqn:G; intros H; inversion H; subst. exact G. Qed.
Lemma server_view y ev : match ev with YReq _ _ | YDropReq | YConnected _ | YClient _ _ _ _ => False | _ => True end ->
  same_view cview (sy_links y) (sy_links (step y ev)) /\ sy_c (step y ev) = sy_c y.
Proof using.
  clear TOK. pose proof (same_view_refl cview (sy_links y)) as R0.
  destruct ev as [c p| |ok|e f tio nio|from|k r|k i b|a e i| |rid x|rid|]; intros []; cbn [y_step]; try apply serve_view.
  - unfold y_accept. destruct from as [l|]; [|apply serve_view]. destruct (smem l (sy_backlog y)); [|auto]. apply (serve_view VAccept y).
  - unfold y_auth. destruct (nth_error _ _) as [[cid addr]|]; [|auto]. destruct auth as [a|] eqn:Au; [|auto]. rewrite <- Au. destruct (link_of cid y) as [[l lk]|] eqn:Lk; [|apply serve_view]. apply link_of_get in Lk.
    destruct (pipe_offers i _); [|auto]. destruct (auth_server a b i) as [[[id| | |] w] rest]; first [apply serve_view | apply serve_set_view; exact Lk].
  - unfold y_peer. destruct (mget a _) as [p|]; [|auto]. destruct (link_of _ y) as [[l lk]|] eqn:Lk; [|apply serve_view]. apply link_of_get in Lk.
    destruct (_ && _); [|apply serve_view]. destruct (pipe_offers i _); [|auto]. destruct (rr_poll i (lk_s lk)). apply serve_set_view; exact Lk.
Qed.

(** ** Client steps *)
Lemma client_effect e fails tio nio y : YI y -> let y' := y_client o token cco D e fails tio nio y in y' = y \/
  exists e' os, rd_done (sy_c y) = false /\ rd_step o cco D (sy_c y) (EIter e') = (sy_c y', os) /\ sy_clog y' = sy_clog y ++ os /\
    forall l k', mget l (sy_links y') = Some k' -> forall m, In m (en_items (lk_c k')) ->
      (exists k, mget l (sy_links y) = Some k /\ In m (en_items (lk_c k))) \/
      (rd_conn (fst (rd_do_task e' (rd_do_flush o e' (sy_c y)))) = RActive /\ e_next e' = NxMsg m).
Proof using.
  clear TOK. intros YY. unfold y_client. destruct (rd_done (sy_c y)) eqn:Dn; [left; reflexivity|].
  destruct (y_task token fails tio y) as [[tk links1]|] eqn:T; [|left; reflexivity].
  pose proof YY as (C & L & S). pose proof C as (C1 & C2 & C3 & C4 & C5 & C6 & C7 & C8 & C9).
  set (e1 := with_task e tk). set (s2 := fst (rd_do_task e1 (rd_do_flush o e1 (sy_c y)))).
  set (cur := match tk with Some true => option_map fst (sy_task y) | _ => sy_cur y end).
  assert (I1 : forall l k1, mget l links1 = Some k1 -> exists k, mget l (sy_links y) = Some k /\ en_items (lk_c k1) = en_items (lk_c k) /\ (en_on (lk_c k) = true -> k1 = k)).
  { unfold y_task in T. destruct (rd_task (sy_c y)) eqn:Tsk0; [|inversion T; subst; eauto].
    destruct (sy_task y) as [[l ok]|] eqn:Tsk; [|inversion T; subst; eauto].
    destruct (C6 l ok eq_refl) as (_ & Nw & k & G & Off). rewrite G in T. destruct (pipe_offers tio (en_in (lk_c k))) eqn:Of; [|discriminate].
    destruct (req_task token (CpConn ok tio)) as [[|]|]; inversion T; subst; eauto. intros l' k1. rewrite mget_set. destruct (eq_dec l' l) as [->|Ne]; [|eauto].
    intros H; inversion H; subst. exists k. split; [exact G|]. split; [reflexivity|congruence]. }
  assert (Send : forall ms ls l k', mget l (y_send cur ms ls) = Some k' -> exists k, mget l ls = Some k /\ en_items (lk_c k') = en_items (lk_c k)).
  { intros ms ls l k'. unfold y_send. destruct cur as [l0|]; [|eauto]. destruct (mget l0 ls) as [k0|] eqn:G0; [|eauto]. rewrite mget_set. destruct (eq_dec l l0) as [->|Ne]; [|eauto]. intros H; inversion H; subst. exists k0. auto. }
  destruct (match rd_conn s2 with RActive => _ | RInactive _ => _ end) as [[nx links2]|] eqn:Nx; [|left; reflexivity].
  destruct (rd_step o cco D (sy_c y) (EIter (with_next e1 nx))) as [c' os] eqn:St. right. exists (with_next e1 nx), os. cbn [sy_c sy_clog sy_links].
  split; [reflexivity|]. split; [exact St|]. split; [reflexivity|]. intros l k' G' m Hm. destruct (Send _ _ _ _ G') as (k2 & G2 & E2). rewrite E2 in Hm. clear G' E2 Send k'.
  change (rd_conn (fst (rd_do_task (with_next e1 nx) (rd_do_flush o (with_next e1 nx) (sy_c y))))) with (rd_conn s2).
  change (e_next (with_next e1 nx)) with nx.
  destruct (rd_conn s2) as [|b] eqn:Ac.
  2: { inversion Nx; subst. destruct (I1 _ _ G2) as (k & G & E & _). left. exists k. rewrite <- E. auto. }
  unfold y_next in Nx. destruct cur as [l0|] eqn:Cu; [|inversion Nx; subst; destruct (I1 _ _ G2) as (k & G & E & _); left; exists k; rewrite <- E; auto].
  destruct (mget l0 links1) as [k1|] eqn:G1; [|discriminate]. destruct (pipe_offers nio (en_in (lk_c k1))) eqn:Of; [|discriminate].
  destruct (rr_poll nio (lk_c k1)) as [r c2] eqn:P. inversion Nx; subst nx links2. clear Nx. rewrite mget_set in G2.
  destruct (eq_dec l l0) as [->|Ne]; [|destruct (I1 _ _ G2) as (k & G & E & _); left; exists k; rewrite <- E; auto].
  inversion G2; subst k2. cbn [lk_c] in Hm. destruct (I1 _ _ G1) as (k & G & E & Same).
  assert (Rd : rdir (lk_s k1) (lk_c k1)).
  { unfold y_task in T. destruct tk as [[|]|]; cbn in cur.
    - destruct (rd_task (sy_c y)) eqn:Tsk0; [|discriminate]. destruct (sy_task y) as [[l ok]|] eqn:Tsk; [|destruct fails; discriminate].
      unfold cur in Cu. cbn in Cu. inversion Cu; subst l. destruct (C6 l0 ok eq_refl) as (_ & Nw & k0 & G0 & Off). rewrite G0 in T. destruct (pipe_offers tio (en_in (lk_c k0))) eqn:Of0; [|discriminate].
      cbn [req_task] in T. destruct (auth_client token ok tio) as [[r0 w] rest] eqn:A. cbn [snd] in T. destruct r0; inversion T; subst links1. rewrite mget_set_eq in G1. inversion G1; subst k1.
      assert (X : LOK (mkLink (end_on (end_hs tio rest (lk_c k0))) (lk_s k0))); [|apply X].
      eapply client_hs; [exact (L _ _ G0)|exact Off| |exact Of0|exact A].
      eapply quiet_server; [exact YY|exact G0|]. pose proof (L _ _ G0) as (_ & _ & K3 & _). specialize (K3 Off). apply noin_eq in K3. apply K3.
    - destruct (C5 _ Cu) as (_ & k0 & G0 & On). assert (k0 = k) by congruence. subst k0. rewrite (Same On). apply (L _ _ G).
    - destruct (C5 _ Cu) as (_ & k0 & G0 & On). assert (k0 = k) by congruence. subst k0. rewrite (Same On). apply (L _ _ G). }
  destruct (rdir_poll _ _ _ _ _ Rd Of P) as (P1 & _ & P3 & _). rewrite P3 in Hm. apply in_app_or in Hm. destruct Hm as [Hm|Hm]; [left; exists k; rewrite <- E; auto|right; split; [reflexivity|]].
  destruct r; try contradiction. destruct Hm as [<-|[]]. reflexivity.
Qed.

(** ** What arrives at the client *)
Lemma item_origin y l k m : YI y -> blen (issued (sy_cevs y)) < 2 ^ 32 -> frames_fit y -> mget l (sy_links y) = Some k -> 
  Forall rr_wf (en_sent (lk_s k)) /\ (In m (en_items (lk_c k)) -> exists cid a rid req, client_connection y cid l /\ In (RIncoming cid a rid req) (sy_slog y) /\ rr_id req = rr_id m /\ In req (map snd (acc_of y))).
Proof using.
  clear TOK. intros Y Lt F G. pose proof Y as (_ & L & (S1 & S2 & S3 & S4 & S5 & S6 & S7)).
  assert (W : Forall rr_wf (en_sent (lk_s k)) /\ forall m, In m (en_sent (lk_s k)) -> exists cid a rid req, client_connection y cid l /\ In (RIncoming cid a rid req) (sy_slog y) /\ rr_id req = rr_id m).
  { destruct (mapped_dec (sy_cids y) l) as [(cid & Hc)|Hn].
    - destruct (S6 _ _ _ Hc G) as (B1 & B2 & _).
      assert (K : forall m0, In m0 (en_sent (lk_s k)) -> rr_wf m0 /\ exists cid a rid req, client_connection y cid l /\ In (RIncoming cid a rid req) (sy_slog y) /\ rr_id req = rr_id m0).
      { intros m0 H0. rewrite B1 in H0. apply in_tak in H0. destruct (run_inv2 max min auth sco D _ _ _ S1) as (_ & _ & _ & (F1 & _ & _ & _ & F5 & _) & _).
        assert (Hh : In m0 (handed_on cid (sy_slog y))) by (unfold handed_on; apply in_flat_map; eexists; split; [exact H0|]; cbn; destruct (eq_dec cid cid); [left; reflexivity|congruence]).
        destruct (F5 cid) as [rest E]. assert (Q : In m0 (map snd (queued_on cid (sy_slog y)))) by (rewrite E; apply in_or_app; left; exact Hh).
        apply in_map_iff in Q. destruct Q as ((r & m') & Em & Q). cbn in Em. subst m'. unfold queued_on in Q. apply in_flat_map in Q. destruct Q as (x & Hx & Q). destruct x; try contradiction. destruct (eq_dec cid0 cid); [|contradiction]. subst. destruct Q as [Q|[]]. inversion Q; subst.
        apply F1 in Hx. destruct Hx as (a & req & x & Hi & _ & Ho).
        assert (Wr : rr_wf req). { pose proof (L _ _ G) as (Kd & _). destruct Kd as (_ & _ & _ & Kw). rewrite Forall_forall in Kw. apply Kw. rewrite B2. apply in_inc. eauto. }
        assert (Sz : blen (rr_payload m0) < 2 ^ 32). { destruct F as [_ F]. apply F. unfold taken_frames. apply in_flat_map. eexists. split; [exact H0|left; reflexivity]. }
        assert (Id : rr_id req = rr_id m0 /\ rr_wf m0).
        { unfold rep_outgoing in Ho. destruct sco as [cm|]; [destruct (cmp_fun cm x) as [q|]; [|discriminate]|]; inversion Ho; subst; (split; [reflexivity|]); apply rr_new_wf; try exact Sz; apply Wr. }
        split; [apply Id|]. exists cid, a, r, req. split; [exact Hc|]. split; [exact Hi|apply Id]. }
      split; [apply Forall_forall; intros m0 H0; apply K, H0|intros m0 H0; apply K, H0].
    - pose proof (fresh_fields _ (S5 _ _ G Hn)) as (_ & _ & _ & _ & -> & _). split; [constructor|intros m0 []]. }
  destruct W as [W1 W2]. split; [exact W1|]. intros Hm. destruct (items_c token auth k (L _ _ G) W1) as [rest E]. destruct (W2 m) as (cid & a & rid & req & Hc & Hi & Id); [rewrite E; apply in_or_app; left; exact Hm|].
  exists cid, a, rid, req. split; [exact Hc|]. split; [exact Hi|]. split; [exact Id|].
  destruct (received_prefix o token cco max min auth sco D y cid l Y Lt F Hc) as (k' & G' & _ & [rest' Pf]).
  apply (taken_acc o token cco max min auth sco D); [exact Y|]. pose proof Y as ((_ & _ & _ & _ & _ & _ & C7 & _) & _). rewrite <- C7. eapply sents_in; [exact G'|]. rewrite Pf. apply in_or_app; left. apply in_inc. eauto.
Qed.

(** ** Nothing that arrived is still awaited *)
Definition PI (y : sys) : Prop := forall i v, mget i (rd_pending (sy_c y)) = Some v -> forall l k m, mget l (sy_links y) = Some k -> In m (en_items (lk_c k)) -> rr_id m <> i.
Lemma PI_view y y' : same_view cview (sy_links y) (sy_links y') -> sy_c y' = sy_c y -> PI y -> PI y'.
Proof using.
  clear TOK. intros V E P i v Hp l k m G Hm. rewrite E in Hp. destruct (view_get _ _ _ _ _ V G) as (k0 & G0 & E0). apply noin_inv in E0. destruct E0 as (_ & _ & E0 & _). rewrite E0 in Hm. eapply P; eauto.
Qed.
Lemma nodup_last {A} (a : list A) x : NoDup (a ++ [x]) -> ~ In x a.
Proof using. clear TOK. intros H. apply NoDup_remove_2 in H. rewrite app_nil_r in H. exact H. Qed.
Lemma seq_nodup n : NoDup (map N.of_nat (seq 0 n)).
Proof using. clear TOK. apply ss_nodup, ss_seq. Qed.
Lemma run_PI evs : blen (asked evs) < 2 ^ 32 -> frames_fit (run evs) -> PI (run evs).
Proof using TOK.
  induction evs as [|ev evs IH] using rev_ind; [intros _ _ i v; discriminate|]. intros Lt F.
  assert (E : run (evs ++ [ev]) = step (run evs) ev) by (unfold y_run; rewrite fold_left_app; reflexivity).
  assert (Lt' : blen (asked evs) < 2 ^ 32) by (unfold asked, blen in *; rewrite flat_map_app, app_length in Lt; lia).
  assert (F' : frames_fit (run evs)) by (eapply ext_fit; [apply step_ext|rewrite <- E; exact F]).
  specialize (IH Lt' F'). assert (Y : YI (run evs)) by (apply y_inv; exact TOK). assert (Y' : YI (run (evs ++ [ev]))) by (apply y_inv; exact TOK).
  rewrite <- (run_asked o token cco max min auth sco D) in Lt, Lt'.
  rewrite E in *. clear E. set (y := run evs) in *. clearbody y. clear evs.
  destruct ev as [c p| |ok|e f tio nio|from|k r|k i b|a e i| |rid x|rid|]; try (match goal with |- PI (y_step _ _ _ _ _ _ _ _ _ ?ev) => destruct (server_view y ev I) as [V Ec] end; eapply PI_view; [exact V|exact Ec|exact IH]).
  - cbn [y_step] in *. unfold y_call in *. destruct (rd_step o cco D (sy_c y) _) as [c' os] eqn:St. intros i v. cbn [sy_c sy_links]. rewrite (call_pending o cco D (EReq c p) _ _ _ ltac:(discriminate) St). apply IH.
  - cbn [y_step] in *. unfold y_call in *. destruct (rd_step o cco D (sy_c y) _) as [c' os] eqn:St. intros i v. cbn [sy_c sy_links]. rewrite (call_pending o cco D EDrop _ _ _ ltac:(discriminate) St). apply IH.
  - cbn [y_step] in *. unfold y_connected. destruct (_ && _); [destruct (sy_task y)|]; try exact IH. intros i v. cbn [sy_c sy_links]. intros Hp l k m. rewrite mget_set. destruct (eq_dec l (sy_fresh y)); [|eapply IH; exact Hp].
    intros H; inversion H; subst. intros [].
  - cbn [y_step] in *. destruct (client_effect e f tio nio y Y) as [E|(e' & os & Dn & St & El & It)]; [rewrite E; exact IH|].
    set (y' := y_client o token cco D e f tio nio y) in *. clearbody y'. intros i v Hp l k m G Hm.
    destruct (iter_pending o cco D e' (sy_c y) (sy_c y') os i v Dn St Hp) as [[Hp' Nm]|(m0 & c & A & Id & _ & Nx)].
    + destruct (It _ _ G _ Hm) as [(k0 & G0 & H0)|[Ac Ex]]; [eapply IH; eauto|apply Nm; assumption].
    + destruct (It _ _ G _ Hm) as [(k0 & G0 & H0)|[Ac Ex]]; [|exfalso; eapply Nx; exact Ex].
      destruct (item_origin y l k0 m Y Lt' F' G0) as [_ Or]. destruct (Or H0) as (cid & a & rid & req & _ & _ & Ir & Ha).
      destruct (acc_ids o token cco max min auth sco D y' Y' Lt) as [Ids _]. unfold acc_of in *. rewrite El, accepted_app, A, !map_app in Ids. cbn [map snd] in Ids.
      pose proof (seq_nodup (length (accepted (sy_clog y) ++ [(c, m0)]))) as Nd. rewrite <- Ids in Nd. apply nodup_last in Nd.
      intros Q. apply Nd. rewrite Id, <- Q, <- Ir. apply in_map, Ha.
Qed.
End Y.
From Verif Require Import Spec.NetSpec3.
Section Z.
Variables (o : ropts) (token : option bytes) (cco : option compressor)
          (max : option N) (min : N) (auth : option (bytes -> bool)) (sco : option compressor) (D : decompressors).
Hypothesis TOK : forall t, token = Some t -> blen t < 2 ^ 32.
Notation YI := (YI o token cco max min auth sco D).
Notation run := (y_run o token cco max min auth sco D).

Lemma drained_read e : end_drained e -> all_read e.
Proof using. clear. intros (A & B & C). split; [exact A|]. auto. Qed.
Lemma resolved_in c L : In c (resolved L) <-> exists r, In (Resolve c r) L.
Proof using.
  clear. unfold resolved. rewrite in_flat_map. split.
  - intros (x & Hx & H). destruct x; try contradiction. destruct H as [<-|[]]. eauto.
  - intros (r & H). exists (Resolve c r). split; [exact H|left; reflexivity].
Qed.
Lemma unresolved_dec L c : (exists r, In (Resolve c r) L) \/ unresolved L c.
Proof using.
  clear. destruct (in_dec N.eq_dec c (resolved L)) as [H|H]; [left; apply resolved_in, H|right]. intros r Hr. apply H, resolved_in. eauto.
Qed.
Lemma in_hand_with s r : in_hand s r -> with_application s r.
Proof using. clear. intros [H|H]; [left; exact H|right]. apply in_map_iff in H. destruct H as (q & E & H). eauto. Qed.

(** A frame written on a connection that has come to rest. *)
Lemma frame_at_rest evs cid l t c m : let y := run evs in blen (asked evs) < 2 ^ 32 -> frames_fit y ->
  client_connection y cid l -> drained y l -> session_idle (sy_s y) cid ->
  In (Accept t c m) (sy_clog y) -> written_on y l m ->
  has_result y c \/ exists rid, In (rid, m) (requests_on cid (sy_slog y)) /\ unanswered y cid rid.
Proof using TOK.
  intros y Lt F Hc (k & G & Oc & Os & Dc & Ds) (addr & p & Gp & Ec & Op & Eg & Pe) Ha (k' & G' & Hm). assert (k' = k) by congruence. subst k'.
  pose proof (run_PI o token cco max min auth sco D TOK evs Lt F) as P. fold y in P.
  assert (Y : YI y) by (apply y_inv; exact TOK). rewrite <- (run_asked o token cco max min auth sco D) in Lt. fold y in Lt. clearbody y. clear evs.
  destruct (unresolved_dec (sy_clog y) c) as [H|Hu]; [left; exact H|right].
  pose proof Y as ((C1 & _) & L & (S1 & S2 & S3 & S4 & S5 & S6 & S7)). pose proof (L _ _ G) as K.
  assert (It : en_items (lk_s k) = en_sent (lk_c k)).
  { apply dir_all; [apply K|eapply (sent_wf o token cco max min auth sco D); eauto|eapply hs_s; eauto|apply drained_read, Ds]. }
  destruct (S6 _ _ _ Hc G) as (B1 & B2 & _). rewrite <- It, B2 in Hm. rewrite <- requests_inc in Hm. apply in_map_iff in Hm. destruct Hm as ((rid & m') & Em & Hm). cbn in Em. subst m'.
  exists rid. split; [exact Hm|]. unfold requests_on in Hm. apply in_flat_map in Hm. destruct Hm as (x & Hx & Hm). destruct x as [c0 a r0 m0| | | | | | | | | | | | | | | | |]; try contradiction. destruct (eq_dec c0 cid); [|contradiction]. destruct Hm as [Hm|[]]. inversion Hm; subst c0 r0 m0. clear Hm.
  assert (Nend : ~ In cid (ended (sy_slog y))).
  { destruct (run_waits max min auth sco D _ _ _ S1) as [((I1 & _) & _) _]. eapply inv1_disj; [exact I1|]. rewrite <- Ec. eapply open_conn; eauto. }
  destruct (run_home max min auth sco D _ _ _ S1 _ _ _ _ Hx) as [X|(p' & Gp' & Op' & Ec')]; [contradiction|].
  assert (addr = a). { destruct (run_waits max min auth sco D _ _ _ S1) as [((I1 & _) & _) _]. eapply open_inj; eauto. congruence. } subst a. assert (p' = p) by congruence. subst p'.
  destruct (idle_request max min auth sco D _ _ _ cid addr rid m p S1 Hx Gp Ec Op Eg) as [X|[X|[X|[X|(r & Id & Hh)]]]].
  - intros [r i] Hr. unfold os_done. cbn [fst]. rewrite (Pe _ _ Hr). reflexivity.
  - left. apply in_hand_with, X.
  - right; right; left; exact X.
  - right; left; exact X.
  - right; right; right; exact X.
  - exfalso. destruct (item_origin o token cco max min auth sco D y l k r Y Lt F G) as [W _].
    assert (Ic : en_items (lk_c k) = en_sent (lk_s k)). { apply dir_all; [apply K|exact W|eapply hs_c; eauto|apply drained_read, Dc]. }
    destruct (run_pend o cco D _ _ _ C1) as [_ Pc]. specialize (Pc _ _ _ Ha Hu).
    eapply P; [exact Pc|exact G| |exact Id]. rewrite Ic, B1. apply in_tak, Hh.
Qed.

Lemma handed_cases L m : In m (handed L) -> In m (taken L) \/ In (Handed m false) L.
Proof using. clear. unfold handed, taken. rewrite !in_flat_map. intros (x & Hx & H). destruct x as [| |m' [|]| | | |]; try contradiction; destruct H as [<-|[]]; [left; eexists; split; [exact Hx|left; reflexivity]|right; exact Hx]. Qed.
Lemma sents_written y m : NoDup (mkeys (sy_links y)) -> In m (sents (sy_links y)) -> exists l, written_on y l m.
Proof using. clear. intros Nd H. unfold sents in H. apply in_flat_map in H. destruct H as ([l k] & Hk & H). exists l, k. split; [apply in_mget; assumption|exact H]. Qed.

(** A call of an idle client. *)
Lemma call_at_rest evs cid l c p : let y := run evs in blen (asked evs) < 2 ^ 32 -> frames_fit y -> (forall cm, cco = Some cm -> inverse_of D cm) -> NoDup (map fst (asked evs)) ->
  client_connection y cid l -> drained y l -> session_idle (sy_s y) cid -> client_idle (sy_c y) -> In (c, p) (asked evs) ->
  has_result y c \/ exists t m, In (Accept t c m) (sy_clog y) /\ try_decompress D (rr_ctype m) (rr_payload m) = Some p /\
    (In (Handed m false) (sy_clog y) \/ (exists l', l' <> l /\ written_on y l' m) \/
     exists rid, In (rid, m) (requests_on cid (sy_slog y)) /\ unanswered y cid rid).
Proof using TOK.
  intros y Lt F Ic Nd Hc Dr Se (Ci1 & Ci2) Hp. destruct (unresolved_dec (sy_clog y) c) as [H|Hu]; [left; exact H|].
  assert (Y : YI y) by (apply y_inv; exact TOK). pose proof Y as ((C1 & C2 & _ & _ & _ & _ & C7 & _) & _).
  destruct (run_acct o cco D _ _ _ C1) as (Pm & _). unfold y in Pm. rewrite run_asked in Pm. fold y in Pm.
  assert (Hc' : In c (calls (sy_c y))).
  { assert (X : In c (resolved (sy_clog y) ++ calls (sy_c y))) by (eapply Permutation_in; [exact Pm|apply (in_map fst _ _ Hp)]). apply in_app_or in X. destruct X as [X|X]; [apply resolved_in in X; destruct X as (r & X); exfalso; eapply Hu; exact X|exact X]. }
  destruct (run_pend o cco D _ _ _ C1) as [Ps _]. destruct (run_acct o cco D _ _ _ C1) as (_ & Ko & _).
  unfold calls in Hc'. rewrite Ci1 in Hc'. cbn [map app] in Hc'. apply in_map_iff in Hc'. destruct Hc' as ([i [t c']] & Ecc & Hi). cbn in Ecc. subst c'.
  apply (in_mget _ _ _ Ko) in Hi. destruct (Ps _ _ _ Hi) as (L1 & m & L2 & EL & Hid & _).
  assert (Ha : In (Accept t c m) (sy_clog y)) by (rewrite EL; apply in_or_app; right; left; reflexivity).
  assert (Am : In (c, m) (acc_of y)) by (unfold acc_of, accepted; apply in_flat_map; eexists; split; [exact Ha|left; reflexivity]).
  assert (Dm : try_decompress D (rr_ctype m) (rr_payload m) = Some p).
  { apply In_nth_error in Am. destruct Am as (n & Am). destruct (acc_ids o token cco max min auth sco D y Y) as [_ Pk]; [unfold y; rewrite run_asked; exact Lt|]. destruct (Pk _ _ _ Am) as (p' & Hp' & Er & _).
    unfold y in Hp'. rewrite run_asked in Hp'. apply nth_error_In in Hp'.
    assert (p' = p). { clear - Nd Hp Hp'. induction (asked evs) as [|[c' q] l IH]; [contradiction|]. cbn in Nd. inversion Nd as [|? ? Hn Nd']; subst.
      destruct Hp as [Hp|Hp], Hp' as [Hp'|Hp']; [congruence|inversion Hp; subst; exfalso; apply Hn, (in_map fst _ _ Hp')|inversion Hp'; subst; exfalso; apply Hn, (in_map fst _ _ Hp)|auto]. }
    subst p'. rewrite Er. clear - Ic. unfold req_into_wire, req_outgoing, rr_ctype, rr_new; cbn [rr_hdr rrh_ctype rr_payload].
    destruct (ro_min_compress o <? blen p); [|reflexivity]. destruct cco as [cm|]; [|reflexivity].
    unfold om_compress. cbn [om_payload om_new]. destruct (cmp_fun cm p) as [q|] eqn:E; [|reflexivity]. cbn. apply T_Compress.decompress_inverse; auto. }
  destruct (T_Req.C14_requests_sent_in_order_pf o cco D _ _ _ C1) as (_ & E'). rewrite Ci2, app_nil_r in E'.
  assert (Hh : In m (handed (sy_clog y))) by (rewrite E'; apply (in_map snd) in Am; exact Am).
  apply handed_cases in Hh. destruct Hh as [Ht|Hf]; [|right; exists t, m; auto].
  rewrite <- C7 in Ht. apply sents_written in Ht; [|apply numbered_nodup, C2]. destruct Ht as (l' & Hw). destruct (N.eq_dec l' l) as [->|Ne]; [|right; exists t, m; split; [exact Ha|]; split; [exact Dm|]; right; left; eauto].
  destruct (frame_at_rest evs cid l t c m Lt F Hc Dr Se Ha Hw) as [X|X]; [left; exact X|right; exists t, m; auto].
Qed.
End Z.
