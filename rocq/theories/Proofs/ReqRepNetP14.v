(** The joint model of a request and a reply socket: the way back, and on to the answers. *)
From Coq Require Import ZArith Permutation Sorting.Sorted.
From Verif Require Import Model.Base Model.Map Model.Framed Model.WireReqRep Model.WireAuth Model.Compression Model.Backoff Model.Handshake Model.ReqDriver Model.RepDriver Model.Net Model.ReqRepNet
  Spec.Wire Spec.Stream Spec.AuthSpec Spec.CompressSpec Spec.ReqSpec Spec.RepSpec Spec.NetSpec Spec.NetSpec3 Spec.NetSpec4 Spec.NetSpec5
  Proofs.BaseP Proofs.MapP Proofs.FramedP Proofs.FramedP2 Proofs.ReqRepP Proofs.AuthP Proofs.NetP
  Proofs.ReqDriverP Proofs.RepDriverP Proofs.RepDriverP2 Proofs.RepDriverP3 Proofs.RepDriverP5 Proofs.RepDriverP6 Proofs.RepNetP Proofs.ReqRepNetP Proofs.ReqRepNetP2 Proofs.ReqRepNetP3 Proofs.ReqRepNetP4 Proofs.ReqRepNetP5 Proofs.ReqRepNetP6 Proofs.ReqRepNetP7 Proofs.ReqRepNetP8 Proofs.ReqRepNetP9 Proofs.ReqRepNetP10 Proofs.ReqRepNetP11 Proofs.ReqRepNetP12 Proofs.ReqRepNetP13.
From Verif Require Proofs.T_Req.
Local Open Scope N_scope.

Lemma written_set (y y' : sys) l k0 k : mget l (sy_links y) = Some k0 -> en_sent (lk_c k) = en_sent (lk_c k0) -> sy_links y' = mset l k (sy_links y) ->
  forall l' m, written_on y' l' m <-> written_on y l' m.
Proof.
  intros G E Es l' m. unfold written_on. rewrite Es. destruct (eq_dec l' l) as [->|Ne].
  - rewrite mget_set_eq. split; intros (x & H & I); rewrite ?G in *; inversion H; subst; [exists k0|exists k]; split; auto; congruence.
  - rewrite mget_set_ne by exact Ne. reflexivity.
Qed.
Lemma written_new (y y' : sys) l k : mget l (sy_links y) = None -> en_sent (lk_c k) = [] -> sy_links y' = mset l k (sy_links y) ->
  forall l' m, written_on y' l' m <-> written_on y l' m.
Proof.
  intros G E Es l' m. unfold written_on. rewrite Es. destruct (eq_dec l' l) as [->|Ne].
  - rewrite mget_set_eq. split; intros (x & H & I); rewrite ?G in *; inversion H; subst. rewrite E in I. destruct I.
  - rewrite mget_set_ne by exact Ne. reflexivity.
Qed.

Section B.
Variables (o : ropts) (token : option bytes) (cco : option compressor)
          (max : option N) (min : N) (auth : option (bytes -> bool)) (sco : option compressor) (D : decompressors).
Hypothesis TOK : forall t, token = Some t -> blen t < 2 ^ 32.
Notation YI := (YI o token cco max min auth sco D).
Notation run := (y_run o token cco max min auth sco D).
Notation step := (y_step o token cco max min auth sco D).

Lemma run_snoc evs ev : run (evs ++ [ev]) = step (run evs) ev.
Proof using. clear. unfold y_run. rewrite fold_left_app. reflexivity. Qed.
Lemma run_more evs more : run (evs ++ more) = fold_left step more (run evs).
Proof using. clear. unfold y_run. apply fold_left_app. Qed.

Definition seeking (y y1 : sys) : Prop :=
  (exists task b, sy_c y1 = set_conn (sy_c y) task (RInactive b)) /\ sy_s y1 = sy_s y /\ sy_slog y1 = sy_slog y /\ sy_cids y1 = sy_cids y /\
  (exists a, sy_clog y1 = sy_clog y ++ a /\ Forall connecting a) /\ (forall l m, written_on y1 l m <-> written_on y l m) /\
  (forall l, mget l (sy_links y1) = None -> mget l (sy_links y) = None).
Lemma seeking_refl y b : rd_conn (sy_c y) = RInactive b -> seeking y y.
Proof using. clear. intros H. split; [exists (rd_task (sy_c y)), b; destruct (sy_c y); cbn in *; subst; reflexivity|]. do 3 (split; [reflexivity|]). split; [exists []; rewrite app_nil_r; auto|]. split; [reflexivity|auto]. Qed.
Lemma seeking_trans y1 y2 y3 : seeking y1 y2 -> seeking y2 y3 -> seeking y1 y3.
Proof using.
  clear. intros ((t & b & E1) & E2 & E3 & E4 & (a & E5 & F) & E6 & E7) ((t' & b' & H1) & H2 & H3 & H4 & (a' & H5 & F') & H6 & H7). split; [exists t', b'; rewrite H1, E1; reflexivity|].
  split; [congruence|]. split; [congruence|]. split; [congruence|]. split; [exists (a ++ a'); rewrite app_assoc, <- E5; split; [exact H5|apply Forall_app; auto]|]. split; [intros l m; rewrite H6, E6; reflexivity|auto].
Qed.
Lemma seeking_retry y task b os ev : Forall connecting os -> seeking y (after_retry y task b os ev).
Proof using.
  clear. intros F. split; [exists task, b; reflexivity|]. do 3 (split; [reflexivity|]). split; [|split; [reflexivity|auto]]. exists (failing y ++ os). split; [reflexivity|]. apply Forall_app. split; [|exact F]. unfold failing. destruct (rd_task _); repeat constructor.
Qed.

(** An attempt starts. *)
Definition attempt (now late addr : N) (n : nat) (evs : list yev) (y : sys) : Prop :=
  exists more t, (length more <= n)%nat /\ Forall (reconnecting now late addr) more /\ now <= t <= late /\ Sorted N.le (client_times more ++ [t]) /\
    let y1 := run (evs ++ more) in seeking y y1 /\ rd_done (sy_c y1) = false /\ rd_task (sy_c y1) = true /\ sy_task y1 = None /\ exists b1, rd_conn (sy_c y1) = RInactive b1.

Lemma fire evs now late addr t b : rd_done (sy_c (run evs)) = false -> rd_conn (sy_c (run evs)) = RInactive b -> bo_count b + 1 < bo_max b -> bo_timeout b <> None -> (sy_task (run evs) = None \/ token <> None) ->
  now <= t <= late -> due b t <= t -> attempt now late addr 1 evs (run evs).
Proof using TOK.
  intros Dn Cn Ct Tm Ht Ti Du. pose proof (y_inv o token cco max min auth sco D TOK evs) as Y. pose proof (run_back o token cco max min auth sco D TOK evs) as B.
  destruct (B Dn) as [B1 _]. pose proof (B1 _ Cn) as (M & Cl & Cc & _).
  assert (Cur : bo_cur b * 2 <= DURATION_MAX).
  { rewrite Cc. assert (2 ^ bo_count b <= 2 ^ 16) by (apply N.pow_le_mono_r; lia). change (2 ^ 16) with 65536 in H. unfold DURATION_MAX. change (2 ^ 64) with 18446744073709551616. lia. }
  destruct (poll_due t b Ct Cur Tm Du) as (b' & d & P).
  destruct (retry o token cco max min auth sco D (run evs) t b b' (BYield d) Y B (conj Dn Cn) Ht P) as (ev & E).
  exists [retry_ev t], t. rewrite run_snoc, E. split; [reflexivity|]. split; [repeat constructor; apply Ti|]. split; [exact Ti|]. split; [cbn; repeat constructor; reflexivity|]. cbv zeta.
  split; [apply seeking_retry; repeat constructor|]. split; [exact Dn|]. do 2 (split; [reflexivity|]). eexists. reflexivity.
Qed.
Lemma arm_fire evs now late addr b : rd_done (sy_c (run evs)) = false -> rd_conn (sy_c (run evs)) = RInactive b -> bo_timeout b = None -> (sy_task (run evs) = None \/ token <> None) ->
  now + 20000000 <= late -> attempt now late addr 2 evs (run evs).
Proof using TOK.
  intros Dn Cn Tm Ht Ti. pose proof (y_inv o token cco max min auth sco D TOK evs) as Y. pose proof (run_back o token cco max min auth sco D TOK evs) as B.
  destruct (B Dn) as [B1 _]. pose proof (B1 _ Cn) as (_ & _ & _ & X). specialize (X Tm). subst b.
  assert (P : bo_poll now reconnect_backoff = (bo_reset now reconnect_backoff, BPending)) by (apply poll_arm; reflexivity).
  destruct (retry o token cco max min auth sco D (run evs) now _ _ BPending Y B (conj Dn Cn) Ht P) as (ev & E).
  assert (E1 : run (evs ++ [retry_ev now]) = after_retry (run evs) false (bo_reset now reconnect_backoff) [] ev) by (rewrite run_snoc; exact E).
  destruct (fire (evs ++ [retry_ev now]) now late addr (now + 20000000) (bo_reset now reconnect_backoff)) as (more & t & A1 & A2 & A3 & A4 & A5).
  - rewrite E1. exact Dn.
  - rewrite E1. reflexivity.
  - reflexivity.
  - discriminate.
  - rewrite E1. left; reflexivity.
  - lia.
  - cbn. lia.
  - cbv zeta in A5. destruct A5 as (S & R). exists (retry_ev now :: more), t. cbv zeta. replace (evs ++ retry_ev now :: more) with ((evs ++ [retry_ev now]) ++ more) by (rewrite <- app_assoc; reflexivity).
    split; [cbn [length]; lia|]. split; [constructor; [cbn; lia|exact A2]|]. split; [exact A3|]. split.
    { change (client_times (retry_ev now :: more)) with (now :: client_times more). cbn [app]. constructor; [exact A4|].
      assert (G : forall z, In z (client_times more) -> now <= z).
      { intros z Hz. unfold client_times in Hz. apply in_flat_map in Hz. destruct Hz as (e & He & Hz). rewrite Forall_forall in A2. specialize (A2 _ He). destruct e; try contradiction. destruct Hz as [<-|[]]. apply A2. }
      destruct (client_times more) as [|z zs]; cbn [app]; constructor; [apply A3|apply G; left; reflexivity]. }
    split; [|exact R]. eapply seeking_trans; [|exact S]. rewrite E1. apply seeking_retry. constructor.
Qed.
Lemma sorted_cons now z zs late addr more : Forall (reconnecting now late addr) more -> now <= z -> Sorted N.le (client_times more ++ z :: zs) -> Sorted N.le (now :: client_times more ++ z :: zs).
Proof using.
  clear. intros A2 A3 A4. constructor; [exact A4|].
  assert (G : forall z, In z (client_times more) -> now <= z).
  { intros x Hz. unfold client_times in Hz. apply in_flat_map in Hz. destruct Hz as (e & He & Hz). rewrite Forall_forall in A2. specialize (A2 _ He). destruct e; try contradiction. destruct Hz as [<-|[]]. apply A2. }
  destruct (client_times more) as [|x xs]; cbn [app]; constructor; [exact A3|apply G; left; reflexivity].
Qed.
Lemma find_attempt evs now addr b : can_get_connection token (run evs) b -> attempt now (next_attempt b now) addr 3 evs (run evs).
Proof using TOK.
  intros (Dn & Cn & Can). pose proof (y_inv o token cco max min auth sco D TOK evs) as Y. pose proof (run_back o token cco max min auth sco D TOK evs) as B.
  assert (Nx : now + 20000000 <= next_attempt b now) by (unfold next_attempt; lia).
  assert (More : forall n m e y late, (n <= m)%nat -> attempt now late addr n e y -> attempt now late addr m e y).
  { intros n m e y late Hn (more & t & A1 & R). exists more, t. split; [lia|exact R]. }
  assert (Cases : (rd_task (sy_c (run evs)) = true /\ sy_task (run evs) = None) \/ (exists l ok, sy_task (run evs) = Some (l, ok) /\ token = None) \/ (bo_count b + 1 < bo_max b /\ (sy_task (run evs) = None \/ token <> None))).
  { destruct (sy_task (run evs)) as [[l ok]|]; [|destruct Can as [Can|(Can & _)]; auto]. destruct token as [tok|]; [|right; left; eauto]. right; right. destruct Can as [Can|(_ & [Can|Can])]; try discriminate. split; [exact Can|right; discriminate]. }
  destruct Cases as [[Tk St]|[(l & ok & St & Tn)|[Ct Ht]]].
  - exists [], now. rewrite app_nil_r. split; [cbn; lia|]. split; [constructor|]. split; [lia|]. split; [repeat constructor|]. cbv zeta. split; [eapply seeking_refl; exact Cn|]. eauto.
  - destruct (abort o token cco max min auth sco D (run evs) now b l ok Y B (conj Dn Cn) Tn St) as (ev & k & (k0 & G0 & Se0) & Se & E).
    assert (E1 := run_snoc evs (abort_ev now)). rewrite E in E1.
    destruct (arm_fire (evs ++ [abort_ev now]) now (next_attempt b now) addr reconnect_backoff) as (more & t & A1 & A2 & A3 & A4 & A5).
    + rewrite E1. exact Dn.
    + rewrite E1. reflexivity.
    + reflexivity.
    + rewrite E1. left; reflexivity.
    + exact Nx.
    + cbv zeta in A5. destruct A5 as (S & R). exists (abort_ev now :: more), t. cbv zeta. replace (evs ++ abort_ev now :: more) with ((evs ++ [abort_ev now]) ++ more) by (rewrite <- app_assoc; reflexivity).
      split; [cbn [length]; lia|]. split; [constructor; [cbn; lia|exact A2]|]. split; [exact A3|]. split; [apply (sorted_cons now t [] (next_attempt b now) addr); [exact A2|apply A3|exact A4]|].
      split; [|exact R]. eapply seeking_trans; [|exact S]. rewrite E1. split; [exists false, reconnect_backoff; reflexivity|]. do 3 (split; [reflexivity|]).
      split; [exists [Connected]; split; [reflexivity|repeat constructor]|]. split; [eapply written_set; [exact G0| |reflexivity]; congruence|]. intros x. cbn [sy_links]. rewrite mget_set. destruct (eq_dec x l); [discriminate|auto].
  - destruct (bo_timeout b) as [d|] eqn:Tm.
    + eapply (More 1%nat); [lia|]. apply (fire evs now _ addr (N.max now d) b Dn Cn Ct); [congruence|exact Ht| |]; [unfold next_attempt; rewrite Tm; lia|unfold due; rewrite Tm; lia].
    + eapply (More 2%nat); [lia|]. apply (arm_fire evs now _ addr b Dn Cn Tm Ht Nx).
Qed.

Lemma fresh_none y : YI y -> mget (sy_fresh y) (sy_links y) = None.
Proof using. clear. intros ((_ & C2 & _) & _). apply (numbered_new _ (link0)) in C2. apply C2. Qed.
Definition back_again (evs more : list yev) (now b : N) (bo : backoff) (addr cid l : N) : Prop :=
  let y := run evs in let y' := run (evs ++ more) in
  Forall (reconnecting now b addr) more /\ Sorted N.le (client_times more) /\ (exists p k, conn_at y' cid l addr p k) /\ as_before y y' addr /\
  (exists a, sy_clog y' = sy_clog y ++ a /\ Forall connecting a) /\ (exists s, sy_slog y' = sy_slog y ++ s /\ Forall (taking_in cid addr) s) /\
  (forall l' k, mget l' (sy_links y) = Some k -> l' <> l) /\ W addr l y' = work_waiting y.
Lemma way_back evs now addr b : can_get_connection token (run evs) b -> let_in token auth -> has_room max (sy_s (run evs)) -> rp_dropped (sy_s (run evs)) = false -> mget addr (rp_peers (sy_s (run evs))) = None ->
  exists more l, (length more <= 8)%nat /\ back_again evs more now (next_attempt b now) b addr (rp_next_cid (sy_s (run evs))) l.
Proof using TOK.
  intros Can Lt Rm Nd Ad. destruct (find_attempt evs now addr b Can) as (m1 & t & L1 & F1 & T1 & S1 & X). cbv zeta in X. destruct X as (Sk & Dn & Tk & St & b1 & Cn).
  pose proof Sk as ((tk & bb & E1) & E2 & E3 & E4 & (a & E5 & Fa) & E6 & E7).
  pose proof (y_inv o token cco max min auth sco D TOK (evs ++ m1)) as Y. set (y1 := run (evs ++ m1)) in *. set (y := run evs) in *.
  destruct (join_base o token cco max min auth sco D TOK y1 addr t b1 Y (conj Dn Cn) Tk St Lt) as (bl & cevs & sevs & k & E & K1 & K2 & K3); [rewrite E2; exact Rm|rewrite E2; exact Ad|].
  set (m2 := join_evs token y1 addr t) in *. set (l := sy_fresh y1) in *. exists (m1 ++ m2), l.
  assert (Ru : run (evs ++ m1 ++ m2) = fold_left step m2 y1) by (rewrite app_assoc, run_more; reflexivity).
  assert (Ln : (length m2 <= 5)%nat) by (unfold m2, join_evs; destruct token; cbn; lia).
  split; [rewrite app_length; lia|]. unfold back_again. cbv zeta. fold y. rewrite Ru, E. cbn [sy_c sy_s sy_links sy_cur sy_clog sy_slog].
  split; [apply Forall_app; split; [exact F1|]; unfold m2, join_evs; destruct token; cbn; repeat constructor; cbn; lia|].
  split.
  { unfold client_times. rewrite flat_map_app. replace (flat_map _ m2) with [t] by (unfold m2, join_evs; destruct token; reflexivity). exact S1. }
  split.
  { eexists _, k. unfold conn_at. cbn [sy_c sy_s sy_links sy_cur set_conn rd_done rd_conn joined rp_dropped rp_peers]. split; [exact Dn|]. split; [reflexivity|]. split; [reflexivity|]. split; [unfold client_connection; cbn [sy_cids]; rewrite <- E2; apply mget_set_eq|].
    split; [rewrite E2; exact Nd|]. rewrite !mget_set_eq. split; [reflexivity|]. cbn [pr_cid pr_open]. rewrite E2. auto. }
  assert (Fn : mget l (sy_links y1) = None) by (apply fresh_none; exact Y).
  split.
  { unfold as_before. cbn [sy_c sy_s joined rp_chan rp_held rp_os rp_peers set_conn rd_cmds rd_egress rd_pending]. rewrite E1, E2. cbn [set_conn rd_cmds rd_egress rd_pending]. do 6 (split; [reflexivity|]).
    split; [intros a' Ha; apply mget_set_ne; exact Ha|]. intros l' m. rewrite <- E6. eapply written_new; [exact Fn|exact K2|reflexivity]. }
  split; [exists (a ++ [Connected]); rewrite app_assoc, <- E5; split; [reflexivity|]; apply Forall_app; split; [exact Fa|repeat constructor]|].
  split.
  { rewrite E2, E3. eexists. split; [reflexivity|]. unfold join_log. destruct token; cbn; repeat constructor. }
  split.
  { intros l' k' G' ->. rewrite (E7 _ Fn) in G'. discriminate. }
  unfold W, work_waiting. cbn [sy_c sy_s sy_links joined rp_chan rp_held rp_os rp_peers set_conn rd_cmds rd_egress rd_pending]. rewrite !mget_set_eq, K2, K3, E1, E2. cbn. lia.
Qed.

Hypothesis IC : forall cm, cco = Some cm -> inverse_of D cm.
Hypothesis IS : forall cm, sco = Some cm -> inverse_of D cm.
Lemma sorted_tail late xs ys : Sorted N.le xs -> (forall x, In x xs -> x <= late) -> (forall x, In x ys -> x = late) -> Sorted N.le (xs ++ ys).
Proof using.
  clear. intros S H1 H2. induction S as [|x xs S IH Hd]; cbn [app].
  - induction ys as [|z zs IH]; [constructor|]. constructor; [apply IH; intros; apply H2; right; assumption|]. destruct zs as [|w ws]; constructor. rewrite (H2 z (or_introl eq_refl)), (H2 w) by (right; left; reflexivity). lia.
  - constructor; [apply IH; intros; apply H1; right; assumption|]. destruct Hd as [|z zs Hz]; cbn [app]; [|constructor; exact Hz]. destruct ys as [|w ws]; constructor. rewrite (H2 w) by (left; reflexivity). apply H1. left; reflexivity.
Qed.
Lemma times_le now late addr more : Forall (reconnecting now late addr) more -> forall x, In x (client_times more) -> x <= late.
Proof using. clear. intros F x Hz. unfold client_times in Hz. apply in_flat_map in Hz. destruct Hz as (e & He & Hz). rewrite Forall_forall in F. specialize (F _ He). destruct e; try contradiction. destruct Hz as [<-|[]]. apply F. Qed.
Lemma times_eq late more : Forall (cooperative late) more -> forall x, In x (client_times more) -> x = late.
Proof using. clear. intros F x Hz. unfold client_times in Hz. apply in_flat_map in Hz. destruct Hz as (e & He & Hz). rewrite Forall_forall in F. specialize (F _ He). destruct e; try contradiction. destruct Hz as [<-|[]]. apply F. Qed.
Lemma reconn_asked now late addr evs more : Forall (reconnecting now late addr) more -> asked (evs ++ more) = asked evs.
Proof using.
  clear. intros F. unfold asked. rewrite flat_map_app. replace (flat_map _ more) with (@nil (N * bytes)); [apply app_nil_r|]. induction F as [|ev q H F IH]; [reflexivity|]. cbn [flat_map]. rewrite <- IH. destruct ev; cbn in H; try reflexivity; contradiction.
Qed.
Lemma call_unique evs : blen (asked evs) < 2 ^ 32 -> forall c c' m t t', In (Accept t c m) (sy_clog (run evs)) -> In (Accept t' c' m) (sy_clog (run evs)) -> c = c'.
Proof using TOK.
  intros Lt c c' m t t' H H'. pose proof (y_inv o token cco max min auth sco D TOK evs) as Y. destruct (acc_ids o token cco max min auth sco D (run evs) Y) as [_ Pk]; [rewrite run_asked; exact Lt|].
  assert (A : forall c t, In (Accept t c m) (sy_clog (run evs)) -> exists n, nth_error (acc_of (run evs)) n = Some (c, m)).
  { intros c0 t0 H0. apply In_nth_error. unfold acc_of, accepted. apply in_flat_map. eexists; split; [exact H0|left; reflexivity]. }
  destruct (A _ _ H) as (n & Hn), (A _ _ H') as (n' & Hn'). destruct (Pk _ _ _ Hn) as (p & _ & E & _), (Pk _ _ _ Hn') as (p' & _ & E' & _).
  assert (X : rr_id m = rr_id m) by reflexivity. rewrite E in X at 1. rewrite E' in X. cbn in X. assert (n = n') by lia. subst n'. congruence.
Qed.
Lemma gone_accepted evs m : frame_gone (run evs) m -> exists t c, In (Accept t c m) (sy_clog (run evs)).
Proof using TOK.
  clear IC IS. intros G. pose proof (y_inv o token cco max min auth sco D TOK evs) as ((C1 & C2 & _ & _ & _ & _ & C7 & _) & _).
  assert (Hh : In m (handed (sy_clog (run evs)))).
  { destruct G as [H|(l & k & Gl & H)]; [unfold handed; apply in_flat_map; eexists; split; [exact H|left; reflexivity]|].
    assert (Ht : In m (taken (sy_clog (run evs)))) by (rewrite <- C7; unfold sents; apply in_flat_map; exists (l, k); split; [apply mget_in; exact Gl|exact H]).
    unfold taken in Ht. apply in_flat_map in Ht. destruct Ht as (x & Hx & Ht). destruct x as [| |m' [|]| | | |]; try contradiction. destruct Ht as [<-|[]]. unfold handed; apply in_flat_map; eexists; split; [exact Hx|left; reflexivity]. }
  destruct (T_Req.C14_requests_sent_in_order_pf o cco D _ _ _ C1) as (_ & E'). assert (Ha : In m (map snd (accepted (sy_clog (run evs))))) by (rewrite <- E'; apply in_or_app; left; exact Hh).
  apply in_map_iff in Ha. destruct Ha as ([c m'] & Em & Ha). cbn in Em. subst m'. unfold accepted in Ha. apply in_flat_map in Ha. destruct Ha as (x & Hx & Ha). destruct x; try contradiction. destruct Ha as [Ha|[]]. inversion Ha; subst. eauto.
Qed.
Lemma survive f evs now addr b : requests_fit cco evs -> replies_fit sco (sy_slog (run evs)) -> (forall q, reply_fits sco (f q)) ->
  can_get_connection token (run evs) b -> let_in token auth -> has_room max (sy_s (run evs)) -> rp_dropped (sy_s (run evs)) = false -> mget addr (rp_peers (sy_s (run evs))) = None ->
  NoDup (map fst (asked evs)) -> answers_with f (sy_slog (run evs)) ->
  exists more, let late := next_attempt b now in
    Forall (fun ev => reconnecting now late addr ev \/ cooperative late ev) more /\ Sorted N.le (client_times more) /\ (length more <= 8 + work_waiting (run evs))%nat /\
    (forall c p, In (c, p) (asked evs) -> ~ has_result (run evs) c ->
       In (Resolve c (OOk (f p))) (sy_clog (run (evs ++ more))) \/ exists t m, In (Accept t c m) (sy_clog (run evs)) /\ frame_gone (run evs) m).
Proof using TOK IC IS.
  intros Rq Ro Rf Can Lt Rm Nd Ad Un An. destruct (way_back evs now addr b Can Lt Rm Nd Ad) as (m1 & l & L1 & F1 & S1 & Cn' & (_ & _ & _ & _ & _ & _ & _ & Wr) & (a & Ea & Fa) & (s & Es & Fs) & New & Wk).
  set (cid := rp_next_cid (sy_s (run evs))) in *. assert (Cn : connected (run (evs ++ m1)) cid l) by (apply conn_at_connected; destruct Cn' as (p & k & Cn'); eauto).
  assert (As : asked (evs ++ m1) = asked evs) by (eapply reconn_asked; exact F1).
  assert (Rq1 : requests_fit cco (evs ++ m1)) by (unfold requests_fit; rewrite As; exact Rq).
  assert (Ns : forall rid x ok, ~ In (RResponded rid x ok) s) by (intros rid x ok H; rewrite Forall_forall in Fs; apply Fs in H; exact H).
  assert (Ro1 : replies_fit sco (sy_slog (run (evs ++ m1)))). { intros rid x H. rewrite Es in H. apply in_app_or in H. destruct H as [H|H]; [eapply Ro; exact H|exfalso; eapply Ns; exact H]. }
  assert (An1 : answers_with f (sy_slog (run (evs ++ m1)))).
  { intros ad rid q x H1 H2. rewrite Es in H1, H2. apply in_app_or in H1, H2. destruct H2 as [H2|H2]; [|exfalso; eapply Ns; exact H2]. destruct H1 as [H1|H1]; [eapply An; eauto|]. rewrite Forall_forall in Fs. destruct (Fs _ H1). }
  destruct (way_out o token cco max min auth sco D TOK IC IS f (next_attempt b now) (evs ++ m1) cid l Rq1 Ro1 Rf Cn) as (m2 & Oc & L2 & Ro2).
  assert (Wl : work_left (run (evs ++ m1)) cid l = work_waiting (run evs)).
  { rewrite <- Wk. destruct Cn' as (p & k & Cn'). symmetry. eapply work_W; eauto. }
  exists (m1 ++ m2). cbv zeta. rewrite app_assoc. pose proof Oc as (Co & _).
  split; [apply Forall_app; split; [eapply Forall_impl; [|exact F1]; auto|eapply Forall_impl; [|exact Co]; auto]|].
  split; [unfold client_times; rewrite flat_map_app; apply (sorted_tail (next_attempt b now)); [exact S1|eapply times_le; exact F1|eapply times_eq; exact Co]|]. split; [rewrite app_length; lia|].
  intros c p Hc Nr. rewrite <- As in Hc, Un.
  assert (Nr1 : ~ has_result (run (evs ++ m1)) c).
  { intros (r & H). rewrite Ea in H. apply in_app_or in H. destruct H as [H|H]; [apply Nr; exists r; exact H|]. rewrite Forall_forall in Fa. destruct (Fa _ H). }
  destruct (answered o token cco max min auth sco D TOK IC IS f (next_attempt b now) (evs ++ m1) m2 cid l c p Rq1 Ro2 Oc Un An1 Hc Nr1) as [H|(t & m & Hm & _ & Lb)]; [left; exact H|right].
  assert (G : frame_gone (run evs) m).
  { destruct Lb as [H|[(l' & _ & H)|(rid & H & _)]].
    - left. rewrite Ea in H. apply in_app_or in H. destruct H as [H|H]; [exact H|]. rewrite Forall_forall in Fa. destruct (Fa _ H).
    - right. exists l'. apply Wr. exact H.
    - exfalso. pose proof (y_inv o token cco max min auth sco D TOK evs) as (_ & _ & (_ & _ & _ & _ & _ & _ & S7)). destruct (S7 cid (N.le_refl _)) as [_ Z].
      unfold requests_on in H. apply in_flat_map in H. destruct H as (x & Hx & H). rewrite Es in Hx. apply in_app_or in Hx. destruct Hx as [Hx|Hx].
      + destruct x; try contradiction. destruct (eq_dec cid0 cid) as [->|]; [|contradiction]. assert (In m0 (inc_on cid (sy_slog (run evs)))); [|rewrite Z in H0; destruct H0].
        unfold inc_on. apply in_flat_map. eexists; split; [exact Hx|]. cbn. destruct (eq_dec cid cid); [left; reflexivity|congruence].
      + rewrite Forall_forall in Fs. apply Fs in Hx. destruct x; contradiction. }
  destruct (gone_accepted evs m G) as (t' & c' & Ha). exists t', m. split; [|exact G].
  assert (c = c'); [|subst; exact Ha].
  assert (As2 : asked ((evs ++ m1) ++ m2) = asked evs) by (rewrite (coop_asked (next_attempt b now)), As by exact Co; reflexivity).
  eapply (call_unique ((evs ++ m1) ++ m2)); [rewrite As2; apply Rq|exact Hm|]. destruct Oc as (_ & _ & _ & (a2 & Ea2 & _) & _). rewrite Ea2, Ea. apply in_or_app; left. apply in_or_app; left. exact Ha.
Qed.
End B.
