(** The joint model of a subscriber and a publisher socket: the way back to a connection, from any state (C86). *)
From Coq Require Import ZArith Permutation Sorting.Sorted.
From Verif Require Import Model.Base Model.Map Model.Framed Model.WirePubSub Model.WireAuth Model.Compression Model.Handshake Model.JoinMap Model.Backoff Model.Trie Model.Utf8 Model.PubDriver Model.SubDriver Model.Net Model.PubSubNet
  Spec.Wire Spec.Stream Spec.CompressSpec Spec.PubSpec Spec.SubSpec Spec.Utf8Spec Spec.NetSpec2 Spec.NetSpec6 Spec.NetSpec9
  Proofs.BaseP Proofs.MapP Proofs.PubSubP Proofs.NetP Proofs.PubSubNetP Proofs.PubNetP Proofs.SubNetP Proofs.PubSubNetP2 Proofs.PubSubNetP3 Proofs.PubSubNetP5 Proofs.PubSubNetP6 Proofs.PubSubNetP15 Proofs.PubSubNetP19.
From Verif Require Import Model.Stats.
From Verif Require Proofs.ReqRepNetP13 Proofs.SubDriverP Proofs.SubDriverP3 Proofs.SubDriverP4 Proofs.SubDriverP5 Proofs.SubDriverP10 Proofs.PubDriverP3.
Local Open Scope N_scope.

(** ** Only the end of a task removes it *)
Lemma spawn_keeps (a b : addr) m m' w : jm_spawn b m = (m', w) -> In a (jm_tasks m) -> In a (jm_tasks m').
Proof. unfold jm_spawn. destruct (smem b (jm_keys m)); intros [= <- <-]; [auto|]. cbn [jm_tasks]. intros H. apply in_or_app. auto. Qed.
Lemma join_keeps (a b : addr) i p m : nth_error (jm_tasks m) i = Some b -> a <> b -> In a (jm_tasks m) -> In a (jm_tasks (fst (jm_join i p m))).
Proof.
  intros N Ne H. unfold jm_join. rewrite N. rewrite (SubDriverP5.nth_split_eq _ _ _ N) in H. apply in_app_or in H. cbn in H.
  destruct p; cbn [fst jm_tasks]; apply in_or_app; destruct H as [H|[H|H]]; auto; congruence.
Qed.
Lemma join_drops (b : addr) i p m : NoDup (jm_tasks m) -> nth_error (jm_tasks m) i = Some b -> ~ In b (jm_tasks (fst (jm_join i p m))).
Proof.
  intros Nd N. unfold jm_join. rewrite N. rewrite (SubDriverP5.nth_split_eq _ _ _ N) in Nd. apply NoDup_remove_2 in Nd. destruct p; exact Nd.
Qed.

Section Z.
Variables (token : option bytes) (ingress initial : N) (D : decompressors)
          (max : option N) (buf min : N) (auth : option (bytes -> bool)) (co : option compressor).
Notation step := (z_step token ingress initial D max buf min auth co).
Notation run := (z_run token ingress initial D max buf min auth co).
Notation zsub := (z_sub token ingress initial D).
Notation zpub := (z_pub max buf min auth co).
Notation act := (sb_act token ingress initial D).

Lemma act_keeps s ev s' o a : act s ev = (s', o) -> (forall k r order, ev = YJoin k r order -> nth_error (jm_tasks (sb_tasks s)) k <> Some a) ->
  In a (jm_tasks (sb_tasks s)) -> In a (jm_tasks (sb_tasks s')).
Proof using.
  intros H Nj Ha. assert (Sp : forall b m' w, jm_spawn b (sb_tasks s) = (m', w) -> In a (jm_tasks m')) by (intros; eapply spawn_keeps; eauto).
  revert H. destruct ev as [cid e|b now| |j q order|f| |]; cbn [sb_act].
  - unfold sb_session. destruct (mget cid (sb_conns s)) as [x|]; [|intros [= <- <-]; exact Ha].
    destruct (sc_alive x); [|intros [= <- <-]; exact Ha]. destruct (ss_iter cid e x) as [[x' o'] r'] eqn:E. intros [= <- <-]. exact Ha.
  - unfold sb_entry. destruct (mget b (sb_pubs s)) as [[cid|bo]|]; [| |intros [= <- <-]; exact Ha].
    + destruct (mget cid (sb_conns s)) as [x|]; [|intros [= <- <-]; exact Ha]. destruct (sc_in x) as [|m rest].
      * destruct (sc_alive x); [intros [= <- <-]; exact Ha|]. destruct (sb_reset initial b s) as [s1 o1] eqn:R. intros [= <- <-]. destruct (SubDriverP3.reset_plain _ _ _ _ _ R) as [_ (_ & _ & _ & _ & T)]. rewrite T. exact Ha.
      * cbv zeta. destruct (try_decompress _ _ _) as [p|].
        -- unfold sb_pass. cbn [sb_set_conns sb_dropped sb_out]. destruct (sb_dropped s); [|destruct (_ <? _)]; intros [= <- <-]; exact Ha.
        -- intros [= <- <-]; exact Ha.
    + destruct (bo_poll now bo) as [b' [d| | |]]; try (intros [= <- <-]; exact Ha).
      cbv zeta. destruct (jm_contains b (sb_tasks s)); [intros [= <- <-]; exact Ha|].
      unfold sb_connect. cbn [sb_set_pubs sb_tasks]. destruct (jm_spawn b (sb_tasks s)) as [jj w] eqn:J. intros [= <- <-]. exact (Sp _ _ _ J).
  - unfold sb_next_command. destruct (sb_cmdq s) as [|cc q] eqn:Eq; [intros [= <- <-]; exact Ha|].
    destruct (sb_command initial cc (sb_set_cmdq s q)) as [s1 o1] eqn:E. intros [= <- <-].
    destruct cc as [t|t|b|b|]; cbn [sb_command] in E; cbv zeta in E; cbn [sb_set_cmdq sb_topics sb_pubs sb_set_topics] in E.
    + destruct (smem t (sb_topics s)); [injection E as <- <-; exact Ha|]. destruct (SubDriverP3.tell_frame _ _ _ _ _ _ E) as ((_ & _ & _ & _ & F) & _). rewrite F. exact Ha.
    + destruct (smem t (sb_topics s)); [|injection E as <- <-; exact Ha]. destruct (SubDriverP3.tell_frame _ _ _ _ _ _ E) as ((_ & _ & _ & _ & F) & _). rewrite F. exact Ha.
    + destruct (mem b (sb_pubs s)); [injection E as <- <-; exact Ha|]. unfold sb_connect in E. cbn [sb_set_cmdq sb_tasks] in E. destruct (jm_spawn b (sb_tasks s)) as [jj w] eqn:J. destruct (sb_reset initial b _) as [s3 o3] eqn:R. injection E as <- <-.
      destruct (SubDriverP3.reset_plain _ _ _ _ _ R) as [_ (_ & _ & _ & _ & F)]. rewrite F. exact (Sp _ _ _ J).
    + destruct (mget b (sb_pubs s)); [|injection E as <- <-; exact Ha]. destruct (sb_release _ _) as [s2 o2] eqn:R. injection E as <- <-. destruct (SubDriverP3.release_frame _ _ _ _ R) as (_ & _ & _ & _ & F). change (In a (jm_tasks (sb_tasks s2))). rewrite F. exact Ha.
    + injection E as <- <-. exact Ha.
  - unfold sb_join. destruct (nth_error (jm_tasks (sb_tasks s)) j) as [b|] eqn:N; [|intros [= <- <-]; exact Ha].
    assert (Ne : a <> b) by (intros ->; exact (Nj _ _ _ eq_refl N)). assert (K : forall p, In a (jm_tasks (fst (jm_join j p (sb_tasks s))))) by (intros; eapply join_keeps; eauto).
    destruct q as [| |ok input]; [intros [= <- <-]; apply K|intros [= <- <-]; apply K|].
    destruct (auth_client token ok input) as [[[| | |] w] rest]; try (intros [= <- <-]; first [apply K|exact Ha]).
    destruct (sb_connected b order _) as [s2 o2] eqn:C. intros [= <- <-]. destruct (SubDriverP5.connected_tasks _ _ _ _ _ C) as (T & _). rewrite T. apply K.
  - unfold sb_call. destruct (sb_dropped s) eqn:Hd; [intros [= <- <-]; exact Ha|]. intros H.
    destruct (api_command f); [destruct (_ <? _)|]; injection H as <- <-; exact Ha.
  - unfold sb_take. destruct (sb_out s) as [|[[[cc b] t] p] q]; intros [= <- <-]; exact Ha.
  - unfold sb_drop. destruct (sb_dropped s) eqn:Hd; intros [= <- <-]; exact Ha.
Qed.

(** A task with a connection is under way. *)
Definition TK (z : zsys) : Prop := forall a, mget a (z_tasks z) <> None -> In a (jm_tasks (sb_tasks (z_c z))).
Lemma sub_TK ev z : (forall k r order a, ev = YJoin k r order -> nth_error (jm_tasks (sb_tasks (z_c z))) k = Some a -> mget a (z_tasks z) = None) -> TK z -> TK (zsub ev z).
Proof using.
  intros Nj H a Ha. unfold z_sub in *. destruct (act (z_c z) ev) as [c' os] eqn:A. cbn [z_tasks z_c] in *. eapply act_keeps; [exact A| |exact (H a Ha)]. intros k r order Ev N. apply Ha. eapply Nj; eauto.
Qed.
Lemma pub_TK ev z : TK z -> TK (zpub ev z).
Proof using. intros H a Ha. unfold z_pub in *. destruct (pb_act max buf min auth co (z_s z) ev). exact (H a Ha). Qed.
Lemma end_TK k r order a z : nth_error (jm_tasks (sb_tasks (z_c z))) k = Some a -> TK z -> TK (z_end_task a (zsub (YJoin k r order) z)).
Proof using.
  intros N H b Hb. cbn [z_end_task z_tasks z_c] in *. unfold z_sub in *. destruct (act (z_c z) (YJoin k r order)) as [c' os] eqn:A. cbn [z_tasks z_c] in *.
  destruct (eq_dec a b) as [->|Ne]; [rewrite mget_del_eq in Hb; congruence|]. rewrite mget_del_ne in Hb by congruence.
  eapply act_keeps; [exact A| |exact (H b Hb)]. intros k' r' o' [= <- <- <-] N'. congruence.
Qed.
Lemma step_TK z ev : TK z -> TK (step z ev).
Proof using.
  intros H. destruct ev as [f| | |a now| |a ok|k r order|cid e i|from|k r|k i b|cid e i|t p|t p| ]; cbn [z_step]; try (apply sub_TK; [intros; discriminate|exact H]); try (apply pub_TK; exact H).
  - unfold z_connected. destruct (smem a _) eqn:Sm; [|exact H]. destruct (mget a (z_tasks z)); [exact H|]. intros b Hb. cbn [z_tasks z_c] in *.
    destruct (eq_dec a b) as [->|Ne]; [apply smem_true; exact Sm|]. rewrite mget_set_ne in Hb by congruence. exact (H b Hb).
  - unfold z_join. destruct (nth_error _ _) as [a|] eqn:N; [|exact H]. destruct (mget a (z_tasks z)) as [[l ok]|] eqn:T; [|apply sub_TK; [|exact H]; intros k' r' o' a' [= <- <- <-] N'; congruence].
    destruct (mget l (z_links z)) as [lk|] eqn:G; [|exact H]. destruct r as [| |so i]; try exact H. destruct (pipe_offers i _); [|exact H].
    pose proof (end_TK k (JConn ok i) order a z N H) as E1.
    destruct (auth_client token ok i) as [[[] w] rest]; first [exact H | exact E1 | idtac].
    cbv zeta. destruct (_ =? _); [exact E1|]. exact E1.
  - unfold z_subsess. destruct (mget cid _) as [x|]; [|exact H]. destruct (sc_alive x); [|exact H]. destruct (z_link_of cid (z_ccids z) z) as [[l k]|] eqn:Lk; [|apply sub_TK; [intros; discriminate|exact H]].
    destruct (pipe_offers i _); [|exact H]. destruct (ps_poll i (lk_c k)) as [r c] eqn:P. apply sub_TK; [intros; discriminate|exact H].
  - unfold z_accept. destruct from as [l|]; [|apply pub_TK; exact H]. destruct (smem l (z_backlog z)); [|exact H]. apply (pub_TK WAccept z H).
  - unfold z_auth. destruct (nth_error _ _) as [cid|]; [|exact H]. destruct auth as [a|] eqn:Au; [|exact H]. rewrite <- Au. destruct (z_link_of cid (z_scids z) z) as [[l k0]|] eqn:Lk; [|apply pub_TK; exact H].
    destruct (pipe_offers i _); [|exact H]. destruct (auth_server a b i) as [[[id| | |] w] rest]; apply pub_TK; exact H.
  - unfold z_pubsess. destruct (mget cid _) as [x|]; [|exact H]. destruct (z_link_of cid (z_scids z) z) as [[l k]|] eqn:Lk; [|apply pub_TK; exact H].
    destruct (s_wants_next buf e (z_s z) x); [|apply pub_TK; exact H]. destruct (pipe_offers i _); [|exact H]. destruct (ps_poll i (lk_s k)) as [r c] eqn:P. apply pub_TK. exact H.
Qed.
Lemma run_TK evs : TK (run evs).
Proof using.
  unfold z_run. rewrite <- fold_left_rev_right. induction (rev evs) as [|ev l IH]; cbn [fold_right]; [intros a Ha; cbn in Ha; congruence|]. apply step_TK, IH.
Qed.

(** ** Getting an attempt under way *)
Definition quiet_dial (a : addr) (x : uout) : Prop := match x with UConnect a' | UConnectFailed a' => a' = a | _ => False end.
Record prep (a : addr) (z z' : zsys) : Prop := mkPrep {
  pr_s : z_s z' = z_s z; pr_links : z_links z' = z_links z; pr_sc : z_scids z' = z_scids z; pr_cc : z_ccids z' = z_ccids z; pr_slog : z_slog z' = z_slog z;
  pr_cmdq : sb_cmdq (z_c z') = sb_cmdq (z_c z); pr_out : sb_out (z_c z') = sb_out (z_c z); pr_drop : sb_dropped (z_c z') = sb_dropped (z_c z);
  pr_top : sb_topics (z_c z') = sb_topics (z_c z); pr_conns : sb_conns (z_c z') = sb_conns (z_c z); pr_next : sb_next (z_c z') = sb_next (z_c z);
  pr_pubs : forall a', a' <> a -> mget a' (sb_pubs (z_c z')) = mget a' (sb_pubs (z_c z));
  pr_clog : exists o, z_clog z' = z_clog z ++ o /\ Forall (quiet_dial a) o }.
Lemma prep_refl a z : prep a z z.
Proof using. split; auto. exists []. rewrite app_nil_r. auto. Qed.
Lemma prep_trans a x y z : prep a x y -> prep a y z -> prep a x z.
Proof using.
  intros H K. destruct (pr_clog _ _ _ H) as (o1 & E1 & F1), (pr_clog _ _ _ K) as (o2 & E2 & F2). split.
  all: try (rewrite (pr_s _ _ _ K); apply H). all: try (rewrite (pr_links _ _ _ K); apply H). all: try (rewrite (pr_sc _ _ _ K); apply H). all: try (rewrite (pr_cc _ _ _ K); apply H).
  all: try (rewrite (pr_slog _ _ _ K); apply H). all: try (rewrite (pr_cmdq _ _ _ K); apply H). all: try (rewrite (pr_out _ _ _ K); apply H). all: try (rewrite (pr_drop _ _ _ K); apply H).
  all: try (rewrite (pr_top _ _ _ K); apply H). all: try (rewrite (pr_conns _ _ _ K); apply H). all: try (rewrite (pr_next _ _ _ K); apply H).
  - intros a' Ne. rewrite (pr_pubs _ _ _ K a' Ne). apply H, Ne.
  - exists (o1 ++ o2). rewrite E2, E1, app_assoc. split; [reflexivity|]. apply Forall_app. auto.
Qed.

Lemma entry_waits z a t b b' : mget a (sb_pubs (z_c z)) = Some (PInactive b) -> bo_poll t b = (b', BPending) ->
  let z' := step z (ZEntry a t) in prep a z z' /\ mget a (sb_pubs (z_c z')) = Some (PInactive b') /\ sb_tasks (z_c z') = sb_tasks (z_c z) /\ z_tasks z' = z_tasks z.
Proof using.
  intros P B. cbv zeta. cbn [z_step]. unfold z_sub. cbn [sb_act]. unfold sb_entry. rewrite P, B. cbn [fold_left z_c sb_set_pubs sb_pubs sb_tasks z_tasks]. split; [|split; [apply mget_set_eq|split; reflexivity]].
  split; try reflexivity; cbn [z_c sb_set_pubs sb_pubs z_clog].
  - intros a' Ne. apply mget_set_ne. congruence.
  - exists []. auto.
Qed.
Lemma entry_dials z a t b b' dd : mget a (sb_pubs (z_c z)) = Some (PInactive b) -> bo_poll t b = (b', BYield dd) -> ~ In a (jm_keys (sb_tasks (z_c z))) ->
  let z' := step z (ZEntry a t) in prep a z z' /\ mget a (sb_pubs (z_c z')) = Some (PInactive b') /\ In a (jm_tasks (sb_tasks (z_c z'))) /\ z_tasks z' = z_tasks z.
Proof using.
  intros P B Nk. cbv zeta. cbn [z_step]. unfold z_sub. cbn [sb_act]. unfold sb_entry. rewrite P, B. cbv zeta. apply smem_false in Nk. unfold jm_contains. rewrite Nk. unfold sb_connect, jm_spawn. cbn [sb_set_pubs sb_tasks]. rewrite Nk.
  cbn [fold_left c_route z_c sb_set_pubs sb_set_tasks sb_pubs sb_tasks jm_tasks z_tasks]. split; [|split; [apply mget_set_eq|split; [apply in_or_app; right; now left|reflexivity]]].
  split; try reflexivity; cbn [z_c sb_set_pubs sb_set_tasks sb_pubs z_clog].
  - intros a' Ne. apply mget_set_ne. congruence.
  - exists [UConnect a]. split; [reflexivity|]. constructor; [reflexivity|constructor].
Qed.

Lemma run_app_z evs more : run (evs ++ more) = fold_left step more (run evs).
Proof using. apply fold_left_app. Qed.

(** No attempt is under way. *)
Lemma case_idle evs a b now order : mget a (sb_pubs (z_c (run evs))) = Some (PInactive b) -> ~ In a (jm_keys (sb_tasks (z_c (run evs)))) ->
  bo_count b + 1 < bo_max b -> bo_cur b * 2 <= DURATION_MAX ->
  exists more b', let z' := run (evs ++ more) in (length more <= 2)%nat /\ Forall (coming_back a now (next_dial b now) order) more /\ Sorted N.le (dial_times more) /\
    prep a (run evs) z' /\ mget a (sb_pubs (z_c z')) = Some (PInactive b') /\ In a (jm_tasks (sb_tasks (z_c z'))) /\ z_tasks z' = z_tasks (run evs).
Proof using.
  intros P Nk Hc Hm.
  assert (One : forall t b' dd, now <= t <= next_dial b now -> bo_poll t b = (b', BYield dd) ->
    exists more b', let z' := run (evs ++ more) in (length more <= 2)%nat /\ Forall (coming_back a now (next_dial b now) order) more /\ Sorted N.le (dial_times more) /\
    prep a (run evs) z' /\ mget a (sb_pubs (z_c z')) = Some (PInactive b') /\ In a (jm_tasks (sb_tasks (z_c z'))) /\ z_tasks z' = z_tasks (run evs)).
  { intros t b' dd Ht B. exists [ZEntry a t], b'. rewrite run_app_z. cbn [fold_left]. destruct (entry_dials (run evs) a t b b' dd P B Nk) as (K1 & K2 & K3 & K4). split; [cbn; lia|]. split; [constructor; [split; [reflexivity|exact Ht]|constructor]|].
    split; [cbn; repeat constructor|]. auto. }
  destruct (bo_timeout b) as [d|] eqn:Tm.
  - assert (El : next_dial b now = N.max now d) by (unfold next_dial; rewrite Tm; reflexivity).
    destruct (ReqRepNetP13.poll_due (N.max now d) b Hc Hm) as (b' & dd & B); [congruence|unfold ReqRepNetP13.due; rewrite Tm; lia|].
    apply (One (N.max now d) b' dd); [rewrite El; lia|exact B].
  - assert (El : next_dial b now = now + bo_cur b) by (unfold next_dial; rewrite Tm; lia).
    assert (Dc : bo_cur b = 0 \/ 0 < bo_cur b) by lia. destruct Dc as [Z0|Pos].
    + destruct (ReqRepNetP13.poll_due now (bo_reset now b)) as (b' & dd & B); [exact Hc|exact Hm|discriminate|unfold ReqRepNetP13.due; cbn; lia|].
      apply (One now b' dd); [lia|]. rewrite <- B. unfold bo_poll. rewrite Tm. reflexivity.
    + pose proof (ReqRepNetP13.poll_arm now b Pos Tm) as B1. set (b1 := bo_reset now b) in *.
      destruct (ReqRepNetP13.poll_due (now + bo_cur b) b1) as (b' & dd & B2); [exact Hc|exact Hm|discriminate|unfold ReqRepNetP13.due; cbn; lia|].
      exists [ZEntry a now; ZEntry a (now + bo_cur b)], b'. rewrite run_app_z. cbn [fold_left].
      destruct (entry_waits (run evs) a now b b1 P B1) as (K1 & K2 & K3 & K4). rewrite <- K3 in Nk. destruct (entry_dials (step (run evs) (ZEntry a now)) a (now + bo_cur b) b1 b' dd K2 B2 Nk) as (L1 & L2 & L3 & L4).
      split; [cbn; lia|]. split; [constructor; [|constructor; [|constructor]]; split; [reflexivity|lia|reflexivity|lia]|]. split; [cbn; repeat constructor; lia|].
      split; [eapply prep_trans; eauto|]. split; [exact L2|]. split; [exact L3|]. rewrite L4. exact K4.
Qed.

(** An attempt is in the middle of its handshake: that may fail. *)
Lemma handshake_fails z a b k l ok lk order : token <> None -> mget a (sb_pubs (z_c z)) = Some (PInactive b) -> nth_error (jm_tasks (sb_tasks (z_c z))) k = Some a ->
  SubDriverP5.JI (sb_tasks (z_c z)) -> mget a (z_tasks z) = Some (l, ok) -> mget l (z_links z) = Some lk ->
  let z' := step z (ZJoin k (JConn ok [IoErr]) order) in prep a z z' /\ mget a (sb_pubs (z_c z')) = Some (PInactive b) /\ ~ In a (jm_keys (sb_tasks (z_c z'))) /\ ~ In a (jm_tasks (sb_tasks (z_c z'))) /\ mget a (z_tasks z') = None.
Proof using.
  intros Tk P Nk Ji T Lk. cbv zeta. assert (Tt : exists tok, token = Some tok) by (destruct token; [eauto|congruence]). destruct Tt as (tok & Et).
  destruct (ReqRepNetP13.client_fails tok ok) as (w & rest & Au). rewrite <- Et in Au.
  assert (Of : pipe_offers [IoErr] (en_in (lk_c lk)) = true) by reflexivity.
  set (c' := sb_set_tasks (z_c z) (fst (jm_join k false (sb_tasks (z_c z))))).
  assert (E : step z (ZJoin k (JConn ok [IoErr]) order) = z_end_task a (mkZ c' (z_s z) (z_links z) (z_backlog z) (z_scids z) (z_ccids z) (z_tasks z) (z_cevs z ++ [YJoin k (JConn ok [IoErr]) order]) (z_clog z ++ [UConnectFailed a]) (z_sevs z) (z_slog z))).
  { cbn [z_step]. unfold z_join. rewrite Nk, T, Lk, Of, Au. unfold z_sub. cbn [sb_act]. unfold sb_join. rewrite Nk, Au. reflexivity. }
  rewrite E. cbn [z_end_task z_c z_tasks]. unfold c'. cbn [sb_set_tasks sb_pubs sb_tasks]. split; [|split; [exact P|split; [|split; [|apply mget_del_eq]]]].
  - split; try reflexivity. exists [UConnectFailed a]. split; [reflexivity|]. constructor; [reflexivity|constructor].
  - unfold jm_join. rewrite Nk. cbn [fst jm_keys]. intros H. apply in_sdel in H. destruct H. congruence.
  - apply join_drops; [apply Ji|exact Nk].
Qed.

Lemma get_ready evs a b now order : can_come_back token (run evs) a b -> (forall t, token = Some t -> blen t < 2 ^ 32) ->
  exists more b', let z' := run (evs ++ more) in (length more <= 3)%nat /\ Forall (coming_back a now (next_dial b now) order) more /\ Sorted N.le (dial_times more) /\
    prep a (run evs) z' /\ mget a (sb_pubs (z_c z')) = Some (PInactive b') /\ In a (jm_tasks (sb_tasks (z_c z'))) /\ mget a (z_tasks z') = None.
Proof using.
  intros (P & Np & Cs) TOK. pose proof (z_inv token ingress initial D max buf min auth co TOK evs) as ((C1 & _ & _ & _ & _ & C6 & _) & _).
  pose proof (SubDriverP10.run_keys token ingress initial D _ _ _ C1 a) as Rk. destruct (SubDriverP5.run_TI token ingress initial D _ _ _ C1) as [Ji _]. pose proof (run_TK evs a) as Tk.
  destruct (in_dec eq_dec a (jm_tasks (sb_tasks (z_c (run evs))))) as [Ia|Na].
  - destruct (mget a (z_tasks (run evs))) as [[l ok]|] eqn:T.
    + destruct Cs as [[_ Cs]|([Cs|Cs] & Hc & Hm)]; [congruence|contradiction|].
      apply In_nth_error in Ia. destruct Ia as (k & Nk). destruct (C6 _ _ _ T) as [(lk & Lk) _].
      destruct (handshake_fails (run evs) a b k l ok lk order Cs P Nk Ji T Lk) as (K1 & K2 & K3 & K4 & K5). set (ev := ZJoin k (JConn ok [IoErr]) order) in *.
      assert (E1 : step (run evs) ev = run (evs ++ [ev])) by (rewrite run_app_z; reflexivity). rewrite E1 in *.
      destruct (case_idle (evs ++ [ev]) a b now order K2 K3 Hc Hm) as (more & b' & M1 & M2 & M3 & M4 & M5 & M6 & M7). rewrite <- app_assoc in *. cbn [app] in *.
      exists (ev :: more), b'. cbv zeta. split; [cbn [length]; lia|]. split; [constructor; [reflexivity|exact M2]|]. split; [exact M3|]. split; [eapply prep_trans; eauto|]. split; [exact M5|]. split; [exact M6|]. rewrite M7. exact K5.
    + exists [], b. rewrite app_nil_r. cbv zeta. split; [cbn; lia|]. split; [constructor|]. split; [constructor|]. split; [apply prep_refl|]. auto.
  - assert (Nk : ~ In a (jm_keys (sb_tasks (z_c (run evs))))) by (intros H; destruct (Rk H); contradiction).
    assert (T : mget a (z_tasks (run evs)) = None) by (destruct (mget a (z_tasks (run evs))); [destruct Na; apply Tk; discriminate|reflexivity]).
    destruct Cs as [[Cs _]|(_ & Hc & Hm)]; [contradiction|].
    destruct (case_idle evs a b now order P Nk Hc Hm) as (more & b' & M1 & M2 & M3 & M4 & M5 & M6 & M7). exists more, b'. cbv zeta. rewrite M7. split; [lia|]. auto 10.
Qed.

(** ** The way back *)
Lemma back_evs_fit z a k order now late : (length (back_evs token z a k order) <= 5)%nat /\ Forall (coming_back a now late order) (back_evs token z a k order) /\ dial_times (back_evs token z a k order) = [].
Proof using.
  unfold back_evs. destruct token; cbn [app]; (split; [cbn; lia|split; [repeat constructor|reflexivity]]).
Qed.
Lemma dial_app x y : dial_times (x ++ y) = dial_times x ++ dial_times y. Proof using. apply flat_map_app. Qed.
Theorem way_back evs a b now order : (forall t, token = Some t -> blen t < 2 ^ 32) -> let z := run evs in
  can_come_back token z a b -> sub_let_in token auth -> pub_has_room max (z_s z) -> sb_dropped (z_c z) = false -> pb_closed (z_s z) = false ->
  exists more, let z' := run (evs ++ more) in let c := sb_next (z_c z) in let d := pb_next_cid (z_s z) in
    (length more <= 8)%nat /\ Forall (coming_back a now (next_dial b now) order) more /\ Sorted N.le (dial_times more) /\
    in_touch z' c d /\ back_again a c d (arrange order (sb_topics (z_c z))) z z' /\
    (exists o, z_clog z' = z_clog z ++ o /\ Forall (dialling a c) o) /\ (exists o, z_slog z' = z_slog z ++ o /\ Forall (letting_in d) o).
Proof using.
  intros TOK z Can Li Rm Dr Cl. subst z. destruct (get_ready evs a b now order Can TOK) as (pre & b' & M1 & M2 & M3 & M4 & M5 & M6 & M7).
  apply In_nth_error in M6. destruct M6 as (k & Nk). set (z1 := run (evs ++ pre)) in *.
  assert (Rm1 : pub_has_room max (z_s z1)) by (rewrite (pr_s _ _ _ M4); exact Rm).
  destruct (back_base token ingress initial D max buf min auth co TOK z1 a b' k order M5 Nk M7 Li Rm1) as (bl & cevs & sevs & lk & E & U & S1 & S2).
  set (more := back_evs token z1 a k order) in *. destruct (back_evs_fit z1 a k order now (next_dial b now)) as (F1 & F2 & F3). fold more in F1, F2, F3.
  exists (pre ++ more). cbv zeta. rewrite app_assoc, run_app_z. fold z1. rewrite E. clear E.
  pose proof (z_inv token ingress initial D max buf min auth co TOK evs) as ((C1 & C2 & _ & C4 & _) & _ & (I1 & _)).
  pose proof (SubDriverP.run_SI token ingress initial D _ _ _ C1) as Si.
  destruct M4 as [Q1 Q2 Q3 Q4 Q5 Q6 Q7 Q8 Q9 Q10 Q11 Q12 (o & Q13 & Q14)].
  set (c := sb_next (z_c (run evs))) in *. set (d := pb_next_cid (z_s (run evs))) in *. set (l := z_fresh z1).
  assert (El : l = z_fresh (run evs)) by (unfold l, z_fresh; rewrite Q2; reflexivity).
  destruct (numbered_new (z_links (run evs)) lk C2) as (_ & Nl & _). fold (z_fresh (run evs)) in Nl. rewrite <- El in Nl.
  assert (Ed : pb_next_cid (z_s z1) = d) by (rewrite Q1; reflexivity).
  destruct (greet_tells c (arrange order (sb_topics (z_c (run evs)))) (sc_new a)) as (g & Eg & Fg); [reflexivity|cbn; lia|].
  assert (Sj : sub_joined a k order (z_c z1) = mkSb (sb_cmdq (z_c (run evs))) (sb_out (z_c (run evs))) false (fst (jm_join k false (sb_tasks (z_c z1)))) (sb_topics (z_c (run evs))) (mset a (PActive c) (sb_pubs (z_c z1)))
       (mset a c (sb_stats (z_c z1))) (mset c (sc_set_cmds (sc_new a) (sc_cmds (sc_new a) ++ map SSub (firstn (64 - length (sc_cmds (sc_new a))) (arrange order (sb_topics (z_c (run evs))))))) (sb_conns (z_c (run evs)))) (c + 1)).
  { unfold sub_joined. rewrite Q6, Q7, Q8, Q9, Q10, Q11, Dr. fold c. rewrite Eg. reflexivity. }
  assert (Gl : sub_log a order (z_c z1) = UOpen c a :: g) by (unfold sub_log; rewrite Q11, Q9; fold c; rewrite Eg; reflexivity).
  rewrite Sj, Gl, Ed, Q11, Q13, Q5, Q3, Q4, Q2. rewrite Q1. fold c d. clear Sj Gl.
  split; [rewrite app_length; lia|]. split; [apply Forall_app; auto|]. split; [rewrite dial_app, F3, app_nil_r; exact M3|].
  split.
  { unfold in_touch. cbn [z_c z_s z_ccids z_scids z_links sb_dropped pub_joined pb_closed sb_conns sb_pubs pb_sess]. split; [reflexivity|]. split; [exact Cl|].
    split; [eexists; rewrite mget_set_eq; split; [reflexivity|]; split; [reflexivity|]; cbn [sc_set_cmds sc_new sc_addr]; apply mget_set_eq|].
    split; [eexists; apply mget_set_eq|]. exists l, lk. rewrite !mget_set_eq. auto. }
  split.
  { split; cbn [z_c z_s z_ccids z_scids z_links sb_dropped pub_joined pb_closed sb_conns sb_pubs pb_sess sb_topics sb_cmdq sb_out pb_hist].
    - destruct (mget c (sb_conns (z_c (run evs)))) eqn:Q; [|reflexivity]. apply (SubDriverP.si_next _ Si) in Q. unfold c in Q. lia.
    - destruct (mget d (pb_sess (z_s (run evs)))) eqn:Q; [|reflexivity]. pose proof (PubDriverP3.run_inv1 _ _ _ _ _ _ _ _ I1) as J.
      assert (Id : In d (sub_admitted (z_slog (run evs)))). { eapply Permutation_in; [symmetry; apply (PubDriverP3.i1_perm _ _ J)|]. apply in_or_app. left. unfold PubDriverP3.qconns. apply in_or_app. right. apply in_or_app. right. apply mget_keys. congruence. }
      apply (PubDriverP3.i1_next _ _ J) in Id. unfold d in Id. lia.
    - apply SubDriverP3.arrange_perm, (SubDriverP.si_top _ Si).
    - eexists. rewrite mget_set_eq. split; [reflexivity|]. repeat split; reflexivity.
    - apply mget_set_eq.
    - auto.
    - intros a' Ne. rewrite mget_set_ne by congruence. apply Q12, Ne.
    - intros c' Ne. apply mget_set_ne. congruence.
    - intros d' Ne. apply mget_set_ne. congruence.
    - exists l, lk. rewrite !mget_set_eq. auto.
    - intros c' l' Ne Gc. rewrite mget_set_ne by congruence. split; [exact Gc|]. destruct (C4 _ _ Gc) as (_ & k' & Hk). apply mget_set_ne. intros ->. congruence. }
  cbn [z_clog z_slog]. split.
  - exists (o ++ UOpen c a :: g). rewrite <- app_assoc. split; [reflexivity|]. apply Forall_app. split.
    + eapply Forall_impl; [|exact Q14]. intros x. destruct x; cbn; auto; contradiction.
    + constructor; [split; reflexivity|]. eapply Forall_impl; [|exact Fg]. intros x (t & r & -> & R). split; [reflexivity|exact R].
  - eexists. split; [reflexivity|]. unfold pub_log. fold d. destruct token; repeat constructor.
Qed.
End Z.
