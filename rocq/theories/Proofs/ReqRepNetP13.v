(** The joint model of a request and a reply socket: the way back to a connection. *)
From Coq Require Import ZArith Permutation Sorting.Sorted.
From Verif Require Import Model.Base Model.Map Model.Framed Model.WireReqRep Model.WireAuth Model.Compression Model.Backoff Model.Stats Model.Handshake Model.ReqDriver Model.RepDriver Model.Net Model.ReqRepNet
  Spec.Wire Spec.Stream Spec.AuthCuts Spec.AuthSpec Spec.CompressSpec Spec.ReqSpec Spec.RepSpec Spec.NetSpec Spec.NetSpec3 Spec.NetSpec4
  Proofs.BaseP Proofs.MapP Proofs.FramedP Proofs.FramedP2 Proofs.ReqRepP Proofs.AuthP Proofs.HandshakeP Proofs.HandshakeP2 Proofs.NetP
  Proofs.ReqDriverP Proofs.RepDriverP Proofs.RepDriverP2 Proofs.RepDriverP3 Proofs.RepDriverP5 Proofs.RepDriverP6 Proofs.RepNetP Proofs.ReqRepNetP Proofs.ReqRepNetP2 Proofs.ReqRepNetP3 Proofs.ReqRepNetP4.
From Verif Require Proofs.T_Req.
Local Open Scope N_scope.

Definition cenv (t : N) : env := mkEnv t false true None NxPending false true 0%nat false false.

Lemma client_fails (tok : bytes) ok : exists w rest, auth_client (Some tok) ok [IoErr] = (ClErr, w, rest).
Proof. destruct ok; [|unfold auth_client; destruct (au_encode _ _); eauto]. rewrite auth_client_next. do 2 eexists. reflexivity. Qed.
Lemma client_acks (tok : bytes) : auth_client (Some tok) true [IoData [x01; x01]] = (ClOk, fst (au_encode au_client (AuthM tok)), []).
Proof. rewrite auth_client_next. reflexivity. Qed.
Lemma server_takes a (tok : bytes) : blen tok < 2 ^ 32 -> a tok = true ->
  exists rest, auth_server a true [IoData (fst (au_encode au_client (AuthM tok)))] = (AuthOk tok, [x01; x01], rest) /\ io_data rest = [].
Proof.
  intros Hl Ha. set (fr := fst (au_encode au_client (AuthM tok))).
  assert (Af : auth_frame tok fr) by (apply (au_frame_encode tok fr au_client); split; [exact Hl|reflexivity]).
  assert (Ln : blen fr = 5 + blen tok). { destruct Af as (z & Hz & ->). destruct Hz as [Lz _]. unfold blen in *. cbn [length]. rewrite app_length. lia. }
  destruct (auth_server_rest a tok fr [IoData fr] [] Af) as (rest & H & Hr).
  - constructor; [|constructor]. destruct fr; [unfold blen in Ln; cbn [length] in Ln; lia|exact I].
  - unfold received. cbn [map concat]. apply app_nil_r.
  - cbn [cuts existsb]. unfold fatal_cut. rewrite Ln. destruct (N.eqb_spec (0 + (5 + blen tok)) 4); [lia|]. destruct (N.ltb_spec (0 + (5 + blen tok)) (5 + blen tok)); [lia|]. rewrite andb_false_r. reflexivity.
  - exact Ha.
  - exists (rest ++ []). cbn [app] in H. split; [exact H|]. rewrite app_nil_r, io_data_received. exact Hr.
Qed.

(** ** The back-off *)
Definition due (b : backoff) (now : N) : N := match bo_timeout b with Some d => d | None => now + bo_cur b end.
Lemma poll_due now b : bo_count b + 1 < bo_max b -> bo_cur b * 2 <= DURATION_MAX -> bo_timeout b <> None -> due b now <= now ->
  exists b' d, bo_poll now b = (b', BYield d).
Proof.
  intros H1 H2 H3 H4. unfold due in H4. unfold bo_poll. destruct (bo_timeout b) as [d|]; [|congruence]. unfold bo_armed. destruct (N.leb_spec d now); [|lia].
  destruct (N.ltb_spec DURATION_MAX (bo_cur b * 2)); [lia|]. cbn [bo_count]. destruct (N.leb_spec (bo_max b) (bo_count b + 1)); [lia|]. eauto.
Qed.
Lemma poll_arm now b : 0 < bo_cur b -> bo_timeout b = None -> bo_poll now b = (bo_reset now b, BPending).
Proof. intros H1 H2. unfold bo_poll. rewrite H2. unfold bo_armed. destruct (N.leb_spec (now + bo_cur b) now); [lia|reflexivity]. Qed.
Definition bo_ok (b : backoff) : Prop := bo_max b = 16 /\ bo_count b < 16 /\ bo_cur b = 20000000 * 2 ^ bo_count b /\ (bo_timeout b = None -> b = reconnect_backoff).
Lemma bo_ok_new : bo_ok reconnect_backoff. Proof. repeat split; try reflexivity. Qed.
Lemma armed_ok now d b b' r : bo_ok b -> bo_timeout b <> None -> bo_armed now d b = (b', r) -> match r with BYield _ | BPending => bo_ok b' | _ => True end.
Proof.
  intros (H1 & H2 & H3 & H4) H5. unfold bo_armed. destruct (d <=? now); [|intros E; inversion E; subst; repeat split; assumption].
  destruct (_ <? _); [intros E; inversion E; subst; exact I|]. cbn [bo_count]. destruct (N.leb_spec (bo_max b) (bo_count b + 1)); intros E; inversion E; subst; [exact I|].
  repeat split; cbn [bo_max bo_reset bo_count bo_cur bo_timeout]; try assumption; try lia; try discriminate. rewrite H3. rewrite N.pow_add_r. change (2 ^ 1) with 2. lia.
Qed.
Lemma poll_ok now b b' r : bo_ok b -> bo_poll now b = (b', r) -> match r with BYield _ | BPending => bo_ok b' | _ => True end.
Proof.
  intros H. unfold bo_poll. destruct (bo_timeout b) as [d|] eqn:T; [apply armed_ok; [exact H|congruence]|]. destruct H as (H1 & H2 & H3 & H4).
  apply (armed_ok now (now + bo_cur b) (bo_reset now b)); [|discriminate]. repeat split; cbn; try assumption. discriminate.
Qed.

Section R.
Variables (o : ropts) (token : option bytes) (cco : option compressor)
          (max : option N) (min : N) (auth : option (bytes -> bool)) (sco : option compressor) (D : decompressors).
Notation YI := (YI o token cco max min auth sco D).
Notation run := (y_run o token cco max min auth sco D).
Notation step := (y_step o token cco max min auth sco D).

(** Two facts about the request driver, along all runs of the joint model. *)
Definition back (y : sys) : Prop :=
  rd_done (sy_c y) = false -> (forall b, rd_conn (sy_c y) = RInactive b -> bo_ok b) /\ (sy_task y <> None -> rd_task (sy_c y) = true).
Lemma finish_done s : rd_done (fst (rd_finish s)) = true. Proof using. reflexivity. Qed.
Lemma ticks_conn n now : forall s s' os, rd_ticks o n now s = (s', os) -> rd_conn s' = rd_conn s.
Proof using.
  induction n as [|n IH]; intros s s' os; cbn [rd_ticks]; [intros H; inversion H; reflexivity|].
  destruct (rd_check_timeouts o now s) as [s1 o1] eqn:C. destruct (rd_ticks o n now s1) as [s2 o2] eqn:T. intros H; inversion H; subst. rewrite (IH _ _ _ T).
  unfold rd_check_timeouts in C. destruct (remove_timed_out _ _). inversion C; subst. reflexivity.
Qed.
Lemma active_back e s s' os ct : rd_conn s = RActive -> rd_do_active o cco D e s = (s', os, ct) -> rd_conn s' = RActive \/ rd_conn s' = RInactive reconnect_backoff.
Proof using.
  intros Cn. unfold rd_do_active. destruct (e_next e) as [m| | |].
  - unfold rd_on_message. destruct (mget _ _) as [[st c]|]; [destruct (try_decompress _ _ _)|]; intros H; inversion H; subst; cbn; auto.
  - intros H; inversion H; subst. right; reflexivity.
  - intros H; inversion H; subst. cbn. auto.
  - destruct (if e_ready e then rd_egress s else []) as [|m q].
    + destruct (rd_ticks o (e_ticks e) (e_now e) s) as [s1 o1] eqn:T. apply ticks_conn in T. rewrite Cn in T. unfold rd_do_command. destruct (e_recv e); [|intros H; inversion H; subst; auto].
      destruct (rd_cmds s1) as [|[c p] r]; [destruct (rd_dropped s1); [destruct (e_close e)|]|]; intros H; inversion H; subst; cbn; auto.
    + destruct (e_send e); intros H; inversion H; subst; cbn; auto.
Qed.
Lemma iter_back e c c' os : T_Req.conn_inv c -> rd_done c = false -> (forall b, rd_conn c = RInactive b -> bo_ok b) -> rd_step o cco D c (EIter e) = (c', os) -> rd_done c' = false ->
  (forall b, rd_conn c' = RInactive b -> bo_ok b) /\ (rd_task c = true -> e_task e = None -> rd_task c' = true).
Proof using.
  intros Ci Dn Bo. cbn [rd_step]. rewrite Dn. unfold rd_iter. destruct (rd_do_task e (rd_do_flush o e c)) as [s2 o2] eqn:T.
  pose proof (task_conn _ _ _ _ T) as Tc. destruct (flush_conn o e c) as (F1 & F2 & F3).
  assert (B2 : forall b, rd_conn s2 = RInactive b -> bo_ok b).
  { intros b Hb. apply Bo. destruct Tc as [Tc _]. rewrite Tc, F1, F2 in Hb. destruct (rd_task c); [destruct (e_task e) as [[|]|]|]; congruence. }
  assert (T2 : rd_task c = true -> e_task e = None -> rd_task s2 = true /\ rd_conn s2 = rd_conn c).
  { intros A B. unfold rd_do_task in T. rewrite F2, A, B in T. inversion T; subst. split; congruence. }
  destruct (rd_conn s2) as [|b] eqn:Cn.
  - destruct (rd_do_active o cco D e s2) as [[s3 o3] ct] eqn:I. intros E Dn'. inversion E; subst. split.
    + intros b Hb. destruct (active_back _ _ _ _ _ Cn I) as [X|X]; rewrite X in Hb; inversion Hb; subst. apply bo_ok_new.
    + intros A B. destruct (T2 A B) as [_ X]. rewrite Ci in A; [discriminate|congruence|exact Dn].
  - destruct (rd_do_inactive e b s2) as [[s3 o3] ct] eqn:I. intros E Dn'. inversion E; subst. unfold rd_do_inactive in I.
    destruct (bo_poll (e_now e) b) as [b' r] eqn:P. pose proof (poll_ok _ _ _ _ (B2 _ eq_refl) P) as Pk. destruct r.
    + destruct (rd_task s2) eqn:Tk; inversion I; subst; cbn [set_conn rd_conn rd_task]; (split; [intros x X; inversion X; subst; exact Pk|auto]).
    + inversion I; subst. discriminate.
    + inversion I; subst. cbn [set_conn rd_conn rd_task]. split; [intros x X; inversion X; subst; exact Pk|]. intros A B. apply T2; assumption.
    + inversion I; subst. discriminate.
Qed.
Lemma serve_client ev y : let y' := y_serve max min auth sco D ev y in sy_c y' = sy_c y /\ sy_task y' = sy_task y.
Proof using. unfold y_serve. destruct (rp_act max min auth sco D (sy_s y) ev). split; reflexivity. Qed.
Lemma back_same y y' : sy_c y' = sy_c y -> sy_task y' = sy_task y -> back y -> back y'.
Proof using. unfold back. intros -> -> H. exact H. Qed.
Lemma step_back y ev : YI y -> back y -> back (step y ev).
Proof using.
  intros ((C1 & _) & _) B. pose proof (conn_ok _ _ _ _ _ _ C1) as Ci. assert (Sv : forall v z, sy_c z = sy_c y -> sy_task z = sy_task y -> back (y_serve max min auth sco D v z)).
  { intros v z E1 E2. destruct (serve_client v z) as [H1 H2]. apply (back_same y); congruence || exact B. }
  destruct ev; cbn [y_step]; try (apply Sv; reflexivity).
  - unfold y_call. cbn [rd_step]. destruct (rd_done (sy_c y) || rd_dropped (sy_c y)); intros H; apply B; exact H.
  - intros H; apply B; exact H.
  - unfold y_connected. destruct (negb (rd_done (sy_c y)) && rd_task (sy_c y)) eqn:E; [|exact B]. destruct (sy_task y); [exact B|]. intros H. cbn [sy_c sy_task] in *. split; [apply B; exact H|]. intros _. apply andb_prop in E. apply E.
  - unfold y_client. destruct (rd_done (sy_c y)) eqn:Dn; [exact B|]. destruct (B Dn) as [B1 B2]. destruct (y_task token fails task_io y) as [[tk ls]|] eqn:T; [|exact B].
    match goal with |- back (match ?x with _ => _ end) => destruct x as [[nx ls2]|] end; [|exact B].
    destruct (rd_step o cco D (sy_c y) (EIter (with_next (with_task e tk) nx))) as [c' os] eqn:St. intros Dn'. cbn [sy_c sy_task] in *.
    destruct (iter_back _ _ _ _ Ci Dn B1 St Dn') as [X1 X2]. split; [exact X1|]. destruct tk; [congruence|]. intros H. apply X2; [apply B2; exact H|reflexivity].
  - unfold y_accept. destruct from as [l|]; [|apply Sv; reflexivity]. destruct (smem l (sy_backlog y)); [|exact B]. destruct (serve_client VAccept y) as [H1 H2]. apply (back_same y); assumption.
  - unfold y_auth. destruct (nth_error _ _) as [[cid a]|]; [|exact B]. destruct auth; [|exact B]. destruct (link_of cid y) as [[l lk]|]; [|apply Sv; reflexivity].
    destruct (pipe_offers _ _); [|exact B]. destruct (auth_server _ _ _) as [[[| | |] w] rest]; apply Sv; reflexivity.
  - unfold y_peer. destruct (mget addr _); [|exact B]. destruct (link_of _ y) as [[l lk]|]; [|apply Sv; reflexivity]. destruct (_ && _); [|apply Sv; reflexivity]. destruct (pipe_offers _ _); [|exact B].
    destruct (rr_poll input (lk_s lk)). apply Sv; reflexivity.
Qed.
Hypothesis TOK : forall t, token = Some t -> blen t < 2 ^ 32.
Lemma run_back evs : back (run evs).
Proof using TOK.
  induction evs as [|ev evs IH] using rev_ind.
  - intros _. split; [|cbn; congruence]. intros b H. inversion H; subst. apply bo_ok_new.
  - unfold y_run. rewrite fold_left_app. apply step_back; [apply y_inv; exact TOK|exact IH].
Qed.

(** ** The steps of the client *)
Definition stalled (y : sys) (b : backoff) : Prop := rd_done (sy_c y) = false /\ rd_conn (sy_c y) = RInactive b.
Definition retry_ev t : yev := YClient (cenv t) true [IoErr] [].
Definition failing (y : sys) : list out := if rd_task (sy_c y) then [ConnectFailed] else [].
Definition after_retry (y : sys) (task : bool) (b : backoff) (os : list out) (ev : req_event) : sys :=
  mkSys (set_conn (sy_c y) task (RInactive b)) (sy_s y) (sy_links y) (sy_backlog y) (sy_cids y) None None
        (sy_cevs y ++ [ev]) (sy_clog y ++ failing y ++ os) (sy_sevs y) (sy_slog y).
Lemma retry y t b b' r : YI y -> back y -> stalled y b -> (sy_task y = None \/ token <> None) -> bo_poll t b = (b', r) ->
  exists ev, match r with
  | BYield _ => step y (retry_ev t) = after_retry y true b' [StartConnect] ev
  | BPending => step y (retry_ev t) = after_retry y false b' [] ev
  | _ => True
  end.
Proof using.
  clear TOK. intros ((C1 & C2 & C3 & C4 & C5 & C6 & _) & _) B (Dn & Cn) Ht P.
  assert (T : y_task token true [IoErr] y = Some (if rd_task (sy_c y) then Some false else None, sy_links y)).
  { unfold y_task. destruct (rd_task (sy_c y)) eqn:Tk; [|reflexivity]. destruct (sy_task y) as [[l ok]|] eqn:St; [|reflexivity]. destruct (C6 _ _ eq_refl) as (_ & _ & k & G & _). rewrite G.
    replace (pipe_offers [IoErr] (en_in (lk_c k))) with true by reflexivity. destruct Ht as [Ht|Ht]; [discriminate|]. destruct token as [tok|]; [|congruence].
    destruct (client_fails tok ok) as (w & rest & E). cbn [req_task]. rewrite E. reflexivity. }
  set (tk := if rd_task (sy_c y) then Some false else None) in *.
  assert (Cu : match tk with Some true => option_map fst (sy_task y) | _ => sy_cur y end = None) by (unfold tk; destruct (rd_task (sy_c y)); apply (C4 _ Cn)).
  exists (EIter (with_next (with_task (cenv t) tk) NxPending)). cbn [y_step retry_ev]. unfold y_client. rewrite Dn, T.
  assert (Fl : forall e, rd_do_flush o e (sy_c y) = sy_c y).
  { intros e. unfold rd_do_flush. destruct (rd_flush (sy_c y)); [|reflexivity]. destruct (match ro_flush_interval o with Some _ => _ | None => _ end); [|reflexivity]. rewrite Cn. reflexivity. }
  rewrite Fl. assert (Tk : forall e n, rd_do_task (with_next (with_task e tk) n) (sy_c y) = (set_conn (sy_c y) false (RInactive b), failing y) /\ rd_do_task (with_task e tk) (sy_c y) = (set_conn (sy_c y) false (RInactive b), failing y)).
  { intros e n. unfold rd_do_task, failing, tk. destruct (rd_task (sy_c y)) eqn:Tk; cbn [with_next with_task e_task]; [rewrite Cn; auto|]. destruct (sy_c y); cbn in *. subst. auto. }
  destruct (Tk (cenv t) NxPending) as [Tk1 Tk2]. rewrite Tk2. cbn [fst rd_conn set_conn].
  cbn [rd_step]. rewrite Dn. unfold rd_iter. rewrite Fl, Tk1. cbn [rd_conn set_conn]. unfold rd_do_inactive. cbn [with_next with_task e_now cenv]. rewrite P.
  assert (Nt : match tk with Some _ => None | None => sy_task y end = None).
  { unfold tk. destruct (rd_task (sy_c y)) eqn:E; [reflexivity|]. destruct (sy_task y) eqn:E2; [|reflexivity]. destruct (B Dn) as [_ B2]. rewrite B2 in E by congruence. discriminate. }
  destruct r; try exact I; cbn [rd_task set_conn rd_conn]; rewrite ?Nt, Cu; unfold after_retry; rewrite <- ?app_assoc; reflexivity.
Qed.

(** Without a token the connection counts as established when the transport has connected: it fails only later. *)
Definition abort_ev t : yev := YClient (cenv t) false [] [IoErr].
Lemma abort y t b l ok : YI y -> back y -> stalled y b -> token = None -> sy_task y = Some (l, ok) ->
  exists ev k, (exists k0, mget l (sy_links y) = Some k0 /\ en_sent (lk_c k0) = []) /\ en_sent (lk_c k) = [] /\ step y (abort_ev t) =
    mkSys (set_conn (sy_c y) false (RInactive reconnect_backoff)) (sy_s y) (mset l k (sy_links y)) (sy_backlog y) (sy_cids y) None None
        (sy_cevs y ++ [ev]) (sy_clog y ++ [Connected]) (sy_sevs y) (sy_slog y).
Proof using.
  clear TOK. intros ((C1 & C2 & C3 & C4 & C5 & C6 & _) & L & _) B (Dn & Cn) Ht St.
  destruct (C6 _ _ St) as (_ & _ & k & G & Off). destruct (L _ _ G) as (_ & _ & K3 & _). specialize (K3 Off). apply noin_eq in K3. destruct K3 as (F1 & F2 & F3 & F4 & F5 & F6).
  destruct (B Dn) as [_ B2]. assert (Tk : rd_task (sy_c y) = true) by (apply B2; congruence).
  set (k1 := mkLink (end_on (end_hs [] [] (lk_c k))) (lk_s k)).
  assert (T : y_task token false [] y = Some (Some true, mset l k1 (sy_links y))).
  { unfold y_task. rewrite Tk, St, G. replace (pipe_offers [] (en_in (lk_c k))) with true by reflexivity. rewrite Ht. reflexivity. }
  assert (Fl : forall e, rd_do_flush o e (sy_c y) = sy_c y).
  { intros e. unfold rd_do_flush. destruct (rd_flush (sy_c y)); [|reflexivity]. destruct (match ro_flush_interval o with Some _ => _ | None => _ end); [|reflexivity]. rewrite Cn. reflexivity. }
  assert (Td : forall e, e_task e = Some true -> rd_do_task e (sy_c y) = (set_conn (sy_c y) false RActive, [Connected])) by (intros e E; unfold rd_do_task; rewrite Tk, E; reflexivity).
  destruct (rr_poll [IoErr] (lk_c k1)) as [r c2] eqn:P.
  assert (Er : r = PFail RRIo /\ en_sent c2 = []).
  { unfold rr_poll, end_poll in P. cbn [k1 lk_c end_on end_hs en_fr en_sent] in P. rewrite F1, F5 in P. cbn in P. inversion P; subst. split; reflexivity. }
  destruct Er as [-> Es]. exists (EIter (with_next (with_task (cenv t) (Some true)) NxErr)), (link_c_send rr_encode [] (mkLink c2 (lk_s k1))).
  split; [eauto|]. split; [cbn [link_c_send lk_c end_send en_sent]; rewrite Es; reflexivity|].
  cbn [y_step abort_ev]. unfold y_client. rewrite Dn, T, Fl, (Td (with_task (cenv t) (Some true)) eq_refl). cbn [fst rd_conn set_conn]. rewrite St. cbn [option_map fst y_next]. rewrite mget_set_eq.
  replace (pipe_offers [IoErr] (en_in (lk_c k1))) with true by reflexivity. rewrite P. cbn [next_of].
  cbn [rd_step]. rewrite Dn. unfold rd_iter. rewrite Fl, Td by reflexivity. cbn [rd_conn set_conn]. unfold rd_do_active. cbn [with_next e_next]. unfold rd_reset.
  rewrite mset_mset. cbn [app y_send sent_frames flat_map]. rewrite mget_set_eq, mset_mset. reflexivity.
Qed.

(** ** Getting connected *)
Definition welcome : Prop :=
  match token, auth with None, None => True | Some t, Some a => a t = true | _, _ => False end.
Definition room (s : rp) : Prop := match max with Some m => rp_active s < m | None => True end.

Lemma accept_room s : room s -> rp_accept max s =
   (rp_incr (mkRp (rp_active s) (rp_conns s ++ [rp_next_cid s]) (rp_auths s) (rp_peers s) (rp_chan s) (rp_held s) (rp_os s)
                (rp_next_rid s) (rp_next_cid s + 1) (rp_tx s) (rp_rx s) (rp_failed s) (rp_dropped s)), [RAccepted (rp_next_cid s)]).
Proof using. clear TOK. unfold room, rp_accept. destruct max as [m|]; [|reflexivity]. intros H. destruct (N.leb_spec m (rp_active s)); [lia|reflexivity]. Qed.
Lemma nth_last {A} (l : list A) x : nth_error (l ++ [x]) (length l) = Some x.
Proof using. clear. induction l; cbn; auto. Qed.
Lemma cut_last {A} (l : list A) x : firstn (length l) (l ++ [x]) ++ skipn (S (length l)) (l ++ [x]) = l.
Proof using. clear. rewrite firstn_app, firstn_all, Nat.sub_diag. cbn [firstn]. rewrite app_nil_r, skipn_all2; [apply app_nil_r|]. rewrite app_length. cbn. lia. Qed.

(** The events after the connection attempt started. *)
Definition join_evs (y : sys) (addr t : N) : list yev :=
  [YConnected true; YAccept (Some (sy_fresh y)); YConn (length (rp_conns (sy_s y))) (Some (Some addr))] ++
  match token with Some tok => [YAuth (length (rp_auths (sy_s y))) [IoData (hello token true)] true] | None => [] end ++
  [YClient (cenv t) false (match token with Some _ => [IoData [x01; x01]] | None => [] end) []].

(** What the server's part does to its socket. *)
Definition joined (s : rp) (addr : N) : rp :=
  mkRp (wrap64 (rp_active s + 1)) (rp_conns s) (rp_auths s) (mset addr (mkPeer (rp_next_cid s) [] [] false true) (rp_peers s)) (rp_chan s) (rp_held s) (rp_os s)
       (rp_next_rid s) (rp_next_cid s + 1) (rp_tx s) (rp_rx s) (rp_failed s) (rp_dropped s).
Definition join_log (s : rp) (addr : N) : list rout :=
  let cid := rp_next_cid s in
  [RAccepted cid] ++ match token with Some tok => [RAuthReply cid [x01; x01]; RAuthed cid [IoData (hello token true)] tok] | None => [] end ++ [ROpen cid addr].

Lemma join_base y addr t b : YI y -> stalled y b -> rd_task (sy_c y) = true -> sy_task y = None -> welcome -> room (sy_s y) -> mget addr (rp_peers (sy_s y)) = None ->
  let cid := rp_next_cid (sy_s y) in let l := sy_fresh y in
  exists bl cevs sevs k, fold_left step (join_evs y addr t) y =
    mkSys (set_conn (sy_c y) false RActive) (joined (sy_s y) addr) (mset l k (sy_links y)) bl (mset cid l (sy_cids y)) (Some l) None
          cevs (sy_clog y ++ [Connected]) sevs (sy_slog y ++ join_log (sy_s y) addr) /\ fr_errored (en_fr (lk_s k)) = false /\ en_sent (lk_c k) = [] /\ en_sent (lk_s k) = [].
Proof using TOK.
  intros ((C1 & C2 & C3 & C4 & C5 & C6 & _) & L & _) (Dn & Cn) Tk St Wc Rm Ad cid l.
  set (k0 := link_c_greet (hello token true) (link0)).
  unfold join_evs. cbn [app]. cbn [fold_left].
  (* the transport connects *)
  set (y1 := mkSys (sy_c y) (sy_s y) (mset l k0 (sy_links y)) (sy_backlog y ++ [l]) (sy_cids y) (sy_cur y) (Some (l, true)) (sy_cevs y) (sy_clog y) (sy_sevs y) (sy_slog y)).
  assert (E1 : step y (YConnected true) = y1). { cbn [y_step]. unfold y_connected. rewrite Dn, Tk, St. reflexivity. }
  rewrite E1. clear E1.
  (* the server accepts *)
  set (s2 := rp_incr (mkRp (rp_active (sy_s y)) (rp_conns (sy_s y) ++ [cid]) (rp_auths (sy_s y)) (rp_peers (sy_s y)) (rp_chan (sy_s y)) (rp_held (sy_s y)) (rp_os (sy_s y))
                (rp_next_rid (sy_s y)) (cid + 1) (rp_tx (sy_s y)) (rp_rx (sy_s y)) (rp_failed (sy_s y)) (rp_dropped (sy_s y)))).
  set (bl := sdel l (sy_backlog y ++ [l])).
  set (y2 := mkSys (sy_c y) s2 (mset l k0 (sy_links y)) bl (mset cid l (sy_cids y)) (sy_cur y) (Some (l, true)) (sy_cevs y) (sy_clog y) (sy_sevs y ++ [VAccept]) (sy_slog y ++ [RAccepted cid])).
  assert (E2 : step y1 (YAccept (Some l)) = y2).
  { cbn [y_step]. unfold y_accept. cbn [y1 sy_backlog sy_s].
    assert (Sm : smem l (sy_backlog y ++ [l]) = true) by (apply smem_true, in_or_app; right; left; reflexivity). rewrite Sm.
    unfold y_serve. cbn [y1 sy_s rp_act]. rewrite (accept_room _ Rm). fold cid. cbn [sy_s sy_links sy_backlog sy_cids sy_cur sy_task sy_cevs sy_clog sy_sevs sy_slog sy_c fold_left route rp_incr rp_with_active rp_next_cid].
    destruct (N.eqb_spec cid (cid + 1)); [lia|]. reflexivity. }
  fold l. rewrite E2. clear E2.
  (* the client's last step, on link [k] *)
  assert (Fl : forall e, rd_do_flush o e (sy_c y) = sy_c y).
  { intros e. unfold rd_do_flush. destruct (rd_flush (sy_c y)); [|reflexivity]. destruct (match ro_flush_interval o with Some _ => _ | None => _ end); [|reflexivity]. rewrite Cn. reflexivity. }
  assert (Fin : forall s links cids sevs slog k tio w rest, mget l links = Some k -> en_fr (lk_c k) = framed_new RRHeader -> en_sent (lk_c k) = [] -> pipe_offers tio (en_in (lk_c k)) = true -> auth_client token true tio = (ClOk, w, rest) ->
     exists cevs k', step (mkSys (sy_c y) s links bl cids (sy_cur y) (Some (l, true)) (sy_cevs y) (sy_clog y) sevs slog) (YClient (cenv t) false tio []) =
       mkSys (set_conn (sy_c y) false RActive) s (mset l k' links) bl cids (Some l) None cevs (sy_clog y ++ [Connected]) sevs slog /\
       fr_errored (en_fr (lk_s k')) = fr_errored (en_fr (lk_s k)) /\ en_sent (lk_c k') = [] /\ en_sent (lk_s k') = en_sent (lk_s k)).
  { intros s links cids sevs slog k tio w rest G Fr Se Of Au. cbn [y_step]. unfold y_client. cbn [sy_c sy_task]. rewrite Dn. unfold y_task. cbn [sy_c sy_task sy_links]. rewrite Tk, G, Of. cbn [req_task]. rewrite Au. cbn [snd].
    rewrite Fl. assert (Td : forall e, e_task e = Some true -> rd_do_task e (sy_c y) = (set_conn (sy_c y) false RActive, [Connected])) by (intros e E; unfold rd_do_task; rewrite Tk, E; reflexivity).
    rewrite Td by reflexivity. cbn [fst rd_conn set_conn option_map y_next]. rewrite mget_set_eq. unfold pipe_offers. cbn [io_data map concat prefixb lk_c].
    set (k1 := end_on (end_hs tio rest (lk_c k))). assert (P : rr_poll [] k1 = (PPending, mkEnd (pipe_read [] [] (en_in k1)) (en_fr k1) (en_hs k1) (en_items k1 ++ []) (en_greet k1) (en_sent k1) (en_on k1))).
    { unfold rr_poll, end_poll. assert (E : en_fr k1 = framed_new RRHeader) by exact Fr. rewrite E. reflexivity. }
    rewrite P. cbn [next_of rd_step]. rewrite Dn. unfold rd_iter. rewrite Fl, Td by reflexivity. cbn [rd_conn set_conn]. unfold rd_do_active. cbn [with_next with_task e_next e_ready cenv e_ticks rd_ticks]. unfold rd_do_command. cbn [with_next with_task cenv e_recv].
    cbn [app sent_frames flat_map y_send]. rewrite !mset_mset, mget_set_eq, mset_mset. cbn [rd_conn set_conn].
    eexists _, _. split; [reflexivity|]. cbn [link_c_send lk_s lk_c end_get end_send en_fr en_sent]. split; [reflexivity|]. unfold k1. cbn [end_on end_hs en_sent]. rewrite Se. split; reflexivity. }
  assert (Nw : forall z, mget l (mset l z (sy_links y)) = Some z) by (intros; apply mget_set_eq).
  unfold welcome in Wc. unfold join_log. set (stp := step) in *.
  assert (Cs : (token = None /\ auth = None) \/ exists tok a, token = Some tok /\ auth = Some a /\ a tok = true) by (destruct token as [tok|], auth as [a|]; try contradiction; eauto 6).
  destruct Cs as [[Tok Au]|(tok & a & Tok & Au & Ok)].
  - set (s3 := joined (sy_s y) addr). set (k3 := mkLink (lk_c k0) (end_on (lk_s k0))). 
    set (y3 := mkSys (sy_c y) s3 (mset l k3 (sy_links y)) bl (mset cid l (sy_cids y)) (sy_cur y) (Some (l, true)) (sy_cevs y) (sy_clog y) ((sy_sevs y ++ [VAccept]) ++ [VConn (length (rp_conns (sy_s y))) (Some (Some addr))]) ((sy_slog y ++ [RAccepted cid]) ++ [ROpen cid addr])).
    assert (E3 : stp y2 (YConn (length (rp_conns (sy_s y))) (Some (Some addr))) = y3).
    { unfold stp. cbn [y_step]. unfold y_serve. cbn [y2 sy_s rp_act]. unfold rp_conn. cbn [s2 rp_incr rp_with_active rp_conns]. rewrite nth_last, cut_last, Au. unfold rp_insert. cbn [rp_peers rp_with_peers s2 rp_incr rp_with_active]. rewrite Ad. fold cid.
      cbn [sy_links sy_cids y2 fold_left route]. rewrite mget_set_eq, Nw, mset_mset. reflexivity. }
    rewrite E3, Tok. cbn [app fold_left].
    destruct (Fin s3 (mset l k3 (sy_links y)) (mset cid l (sy_cids y)) ((sy_sevs y ++ [VAccept]) ++ [VConn (length (rp_conns (sy_s y))) (Some (Some addr))]) ((sy_slog y ++ [RAccepted cid]) ++ [ROpen cid addr]) k3 [] [] [] (Nw k3)) as (cevs & k' & E & X1 & X2); try reflexivity.
    { rewrite Tok. reflexivity. }
    exists bl, cevs. eexists. exists k'. fold y3 in E. rewrite E, mset_mset, <- !app_assoc. split; [reflexivity|]. split; [rewrite X1; reflexivity|]. split; [apply X2|]. destruct X2 as [_ X2]. rewrite X2. reflexivity.
  - assert (Lt : blen tok < 2 ^ 32) by (apply TOK; exact Tok).
    destruct (server_takes a tok Lt Ok) as (rest & As & Rs). set (h := hello token true). assert (Eh : h = fst (au_encode au_client (AuthM tok))) by (unfold h, hello; rewrite Tok; reflexivity).
    rewrite <- Eh in As.
    set (s3 := mkRp (rp_active s2) (rp_conns (sy_s y)) (rp_auths (sy_s y) ++ [(cid, addr)]) (rp_peers s2) (rp_chan s2) (rp_held s2) (rp_os s2) (rp_next_rid s2) (rp_next_cid s2) (rp_tx s2) (rp_rx s2) (rp_failed s2) (rp_dropped s2)).
    set (v3 := (sy_sevs y ++ [VAccept]) ++ [VConn (length (rp_conns (sy_s y))) (Some (Some addr))]).
    set (y3 := mkSys (sy_c y) s3 (mset l k0 (sy_links y)) bl (mset cid l (sy_cids y)) (sy_cur y) (Some (l, true)) (sy_cevs y) (sy_clog y) v3 ((sy_slog y ++ [RAccepted cid]) ++ [])).
    assert (E3 : stp y2 (YConn (length (rp_conns (sy_s y))) (Some (Some addr))) = y3).
    { unfold stp. cbn [y_step]. unfold y_serve. cbn [y2 sy_s rp_act]. unfold rp_conn. cbn [s2 rp_incr rp_with_active rp_conns]. rewrite nth_last, cut_last, Au. reflexivity. }
    rewrite E3, Tok. cbn [app fold_left].
    set (k4 := link_s_greet [x01; x01] (mkLink (lk_c k0) (end_hs [IoData h] rest (lk_s k0)))). set (k5 := mkLink (lk_c k4) (end_on (lk_s k4))).
    set (v4 := v3 ++ [VAuth (length (rp_auths (sy_s y))) [IoData h] true]).
    set (y4 := mkSys (sy_c y) (joined (sy_s y) addr) (mset l k5 (sy_links y)) bl (mset cid l (sy_cids y)) (sy_cur y) (Some (l, true)) (sy_cevs y) (sy_clog y) v4
                 (((sy_slog y ++ [RAccepted cid]) ++ []) ++ [RAuthReply cid [x01; x01]; RAuthed cid [IoData h] tok; ROpen cid addr])).
    assert (E4 : stp y3 (YAuth (length (rp_auths (sy_s y))) [IoData h] true) = y4).
    { unfold stp. cbn [y_step]. unfold y_auth. cbn [y3 sy_s s3 rp_auths]. rewrite nth_last. rewrite Au. unfold link_of. cbn [y3 sy_cids sy_links]. rewrite mget_set_eq, Nw.
      assert (Of : pipe_offers [IoData h] (en_in (lk_s k0)) = true).
      { unfold pipe_offers. apply prefixb_ok. exists []. unfold io_data. cbn [map concat]. rewrite !app_nil_r. reflexivity. }
      rewrite Of, As. unfold y_serve. cbn [set_link sy_s y3 rp_act]. unfold rp_auth. cbn [s3 rp_auths]. rewrite nth_last, As, cut_last. unfold rp_insert. cbn [rp_peers rp_with_peers s2 s3 rp_incr rp_with_active]. rewrite Ad.
      cbn [app set_link y3 sy_links sy_cids fold_left route]. rewrite !mget_set_eq, !mset_mset, ?mget_set_eq. reflexivity. }
    fold h. replace (hello (Some tok) true) with h by (unfold h; rewrite Tok; reflexivity). rewrite E4.
    destruct (Fin (joined (sy_s y) addr) (mset l k5 (sy_links y)) (mset cid l (sy_cids y)) v4 (((sy_slog y ++ [RAccepted cid]) ++ []) ++ [RAuthReply cid [x01; x01]; RAuthed cid [IoData h] tok; ROpen cid addr])
       k5 [IoData [x01; x01]] (fst (au_encode au_client (AuthM tok))) [] (Nw k5)) as (cevs & k' & E & X1 & X2); try reflexivity.
    { rewrite Tok. apply client_acks. }
    exists bl, cevs. exists v4, k'. fold y4 in E. rewrite E, mset_mset, <- !app_assoc. split; [reflexivity|]. split; [rewrite X1; reflexivity|]. split; [apply X2|]. destruct X2 as [_ X2]. rewrite X2. reflexivity.
Qed.
End R.
