(** Subscriber: where commands to sessions come from; after the drop of the socket; polling. *)
From Coq Require Import ZArith ZifyBool ZifyNat ZifyN Permutation.
From Verif Require Import Model.Base Model.Map Model.WirePubSub Model.Compression Model.Stats Model.Framed Model.WireAuth
  Model.Handshake Model.Utf8 Model.Backoff Model.JoinMap Model.PubDriver Model.SubDriver Spec.ReqSpec Spec.SubSpec Proofs.BaseP Proofs.MapP Proofs.SubDriverP Proofs.SubDriverP2 Proofs.SubDriverP3 Proofs.SubDriverP4 Proofs.SubDriverP5 Proofs.SubDriverP6.
Local Open Scope N_scope.

Section P.
Variables (token : option bytes) (ingress initial : N) (D : decompressors).
Notation act := (sb_act token ingress initial D).
Notation run := (sb_run token ingress initial D).

(** ** Commands to sessions stem from commands of the application *)
Definition cmd_of (c : sess_cmd) : scommand := match c with SSub t => CSub t | SUnsub t => CUnsub t end.
Definition srcI (L : list uout) (s : sb) : Prop :=
  (forall k c r, In (UTry k c r) L -> In (cmd_of c) (commands L)).

Lemma in_tried k c r L : In (UTry k c r) L -> In c (tried k L).
Proof. intros H. unfold tried. apply in_flat_map. exists (UTry k c r). split; [exact H|]. destruct (eq_dec k k); [now left|congruence]. Qed.
Lemma tried_in k c L : In c (tried k L) -> exists r, In (UTry k c r) L.
Proof. unfold tried. rewrite in_flat_map. intros (z & H & Hc). destruct z; try contradiction. destruct (eq_dec cid k); [subst|contradiction]. destruct Hc as [->|[]]. eauto. Qed.

Lemma tell_only c : forall l s s' o, sb_tell initial c l s = (s', o) -> forall k c' r, In (UTry k c' r) o -> c' = c.
Proof.
  induction l as [|[a [cid|b]] l IH]; intros s s' o; cbn [sb_tell].
  - intros [= <- <-] k c' r [].
  - destruct (mget cid (sb_conns s)) as [x|]; [|apply IH]. destruct (sc_try c x) as [x' r].
    set (s1 := sb_set_conns s (mset cid x' (sb_conns s))). destruct (match r with TClosed => sb_reset initial a s1 | _ => (s1, []) end) as [s2 o2] eqn:E2.
    destruct (sb_tell initial c l s2) as [s3 o3] eqn:E3. intros [= <- <-] k c' r' [Hi|Hi]; [congruence|]. apply in_app_or in Hi. destruct Hi as [Hi|Hi]; [|eapply IH; eauto].
    exfalso. apply in_tried in Hi. destruct r; try (injection E2 as <- <-; destruct Hi). destruct (reset_plain _ _ _ _ _ E2) as [(_ & _ & T) _]. rewrite T in Hi. destruct Hi.
  - apply IH.
Qed.
Lemma greet_only cid : forall ts x x' o, sb_greet cid ts x = (x', o) -> forall k c r, In (UTry k c r) o -> exists t, c = SSub t /\ In t ts.
Proof.
  induction ts as [|t ts IH]; intros x x' o; cbn [sb_greet]; [intros [= <- <-] k c r []|]. destruct (sc_try (SSub t) x) as [x1 r1]. destruct (sb_greet cid ts x1) as [x2 o2] eqn:G.
  intros [= <- <-] k c r [Hi|Hi]; [injection Hi as <- <- <-; exists t; split; [reflexivity|now left]|]. destruct (IH _ _ _ G _ _ _ Hi) as (t' & -> & Ht). exists t'. split; [reflexivity|now right].
Qed.

Lemma in_after_sub : forall cs known t, In t (after known cs) -> In t known \/ In (CSub t) cs.
Proof.
  induction cs as [|[u|u|x|x|] cs IH]; intros known t H; cbn in H; auto; apply IH in H; (destruct H as [H|H]; [|right; now right]).
  - apply in_sins in H. destruct H as [H| ->]; [now left|right; now left].
  - apply in_sdel in H. tauto.
  - now left.
  - now left.
  - now left.
Qed.

Lemma act_src L s ev s' o : SI s -> GI ingress L s -> srcI L s -> act s ev = (s', o) -> srcI (L ++ o) s'.
Proof.
  intros HS G I H. unfold srcI. intros k c r Hi. rewrite commands_app, in_app_iff. apply in_app_or in Hi. destruct Hi as [Hi|Hi]; [left; eauto|].
  assert (no : (forall k, tried k o = []) -> False). { intros T. apply in_tried in Hi. rewrite T in Hi. destruct Hi. }
  revert H. destruct ev as [cid e|b now| |j q order|f| |]; cbn [sb_act].
  - unfold sb_session. destruct (mget cid (sb_conns s)) as [x|]; [|intros [= <- <-]; destruct Hi].
    destruct (sc_alive x); [|intros [= <- <-]; destruct Hi]. destruct (ss_iter cid e x) as [[x' o'] r'] eqn:E. intros [= <- <-]. exfalso. apply no. apply (ss_iter_plain _ _ _ _ _ _ E).
  - unfold sb_entry. destruct (mget b (sb_pubs s)) as [[cid|bo]|]; [| |intros [= <- <-]; destruct Hi].
    + destruct (mget cid (sb_conns s)) as [x|]; [|intros [= <- <-]; destruct Hi]. destruct (sc_in x) as [|m rest].
      * destruct (sc_alive x); [intros [= <- <-]; destruct Hi|]. destruct (sb_reset initial b s) as [s1 o1] eqn:R. intros [= <- <-]. exfalso. apply no. apply (reset_plain _ _ _ _ _ R).
      * cbv zeta. destruct (try_decompress _ _ _) as [p|].
        -- unfold sb_pass. cbn [sb_set_conns sb_dropped sb_out]. destruct (sb_dropped s); [|destruct (_ <? _)]; intros [= <- <-]; exfalso; now apply no.
        -- intros [= <- <-]; exfalso; now apply no.
    + destruct (bo_poll now bo) as [b' [d| | |]]; try (intros [= <- <-]; exfalso; now apply no).
      cbv zeta. destruct (jm_contains b (sb_tasks s)); [intros [= <- <-]; destruct Hi|].
      unfold sb_connect. destruct (jm_spawn _ _) as [jj w]. intros [= <- <-]. exfalso. destruct w; now apply no.
  - unfold sb_next_command. destruct (sb_cmdq s) as [|cc q] eqn:Eq; [intros [= <- <-]; destruct Hi|].
    destruct (sb_command initial cc (sb_set_cmdq s q)) as [s1 o1] eqn:E. intros [= <- <-]. destruct Hi as [Hi|Hi]; [discriminate|]. right. left.
    assert (no' : (forall k, tried k o1 = []) -> False). { intros T. apply in_tried in Hi. rewrite T in Hi. destruct Hi. }
    destruct cc as [t|t|b|b|]; cbn [sb_command] in E; cbv zeta in E; cbn [sb_set_cmdq sb_topics sb_pubs sb_set_topics] in E.
    + destruct (smem t (sb_topics s)); [injection E as <- <-; destruct Hi|]. now rewrite (tell_only _ _ _ _ _ E _ _ _ Hi).
    + destruct (smem t (sb_topics s)); [|injection E as <- <-; destruct Hi]. now rewrite (tell_only _ _ _ _ _ E _ _ _ Hi).
    + destruct (mem b (sb_pubs s)); [injection E as <- <-; destruct Hi|]. unfold sb_connect in E. destruct (jm_spawn _ _) as [jj w]. destruct (sb_reset initial b _) as [s3 o3] eqn:R. injection E as <- <-.
      exfalso. apply no'. intros k'. rewrite tried_app. destruct (reset_plain _ _ _ _ _ R) as [(_ & _ & T) _]. rewrite T. destruct w; reflexivity.
    + destruct (mget b (sb_pubs s)); [|injection E as <- <-; destruct Hi]. destruct (sb_release _ _) as [s2 o2] eqn:R. injection E as <- <-. exfalso. apply no'. apply (release_plain _ _ _ _ R).
    + injection E as <- <-. destruct Hi.
  - unfold sb_join. destruct (nth_error (jm_tasks (sb_tasks s)) j) as [b|] eqn:N; [|intros [= <- <-]; destruct Hi].
    destruct q as [| |ok input]; try (intros [= <- <-]; exfalso; now apply no).
    destruct (auth_client token ok input) as [[[| | |] w] rest]; try (intros [= <- <-]; exfalso; now apply no).
    unfold sb_connected. cbv zeta. cbn [sb_set_tasks sb_pubs sb_next sb_topics sb_cmdq sb_out sb_dropped sb_tasks sb_stats sb_conns].
    assert (U : forall x o1, sb_greet (sb_next s) (arrange order (sb_topics s)) (sc_new b) = (x, o1) -> o = UOpen (sb_next s) b :: o1 -> In (cmd_of c) (commands L)).
    { intros x o1 Gr ->. destruct Hi as [Hi|Hi]; [discriminate|]. destruct (greet_only _ _ _ _ _ Gr _ _ _ Hi) as (t & -> & Ht). apply arrange_in in Ht. apply (gi_top _ _ _ G) in Ht.
      apply in_after_sub in Ht. destruct Ht as [[]|Ht]. exact Ht. }
    destruct (mget b (sb_pubs s)) as [[cc|bb]|]; try (destruct (sb_greet _ _ _) as [x o1] eqn:Gr); intros [= <- <-]; [exfalso; now apply no|left; eapply U; eauto..].
  - unfold sb_call. destruct (sb_dropped s); [intros [= <- <-]; destruct Hi|]. destruct (api_command f); [destruct (_ <? _)|]; intros [= <- <-]; exfalso; now apply no.
  - unfold sb_take. destruct (sb_out s) as [|[[[cc b] t] p] q]; intros [= <- <-]; exfalso; now apply no.
  - unfold sb_drop. destruct (sb_dropped s); intros [= <- <-]; exfalso; now apply no.
Qed.
Lemma run_src evs s L : run sb_init evs = (s, L) -> srcI L s.
Proof.
  intros R. refine (proj2 (run_inv token ingress initial D (fun L s => GI ingress L s /\ srcI L s) _ _ evs s L R)).
  - split; [apply GI_init|intros k c r []].
  - intros L0 s0 ev o s' HS [A B] H. split; [eapply act_GI; eauto|eapply act_src; eauto].
Qed.
(** An oversized topic is behind every crash. *)
Lemma got_try cid c L y : cmdI cid L y -> In (UGot cid c) L -> exists r, In (UTry cid c r) L.
Proof.
  intros I H. assert (X : In c (enqueued cid L)).
  { assert (Hg : In c (got cid L)). { unfold got. apply in_flat_map. exists (UGot cid c). split; [exact H|]. destruct (eq_dec cid cid); [now left|congruence]. }
    destruct y as [x|]; cbn in I; [|subst; destruct H]. destruct I as (_ & (r & ->) & _). apply in_or_app. now left. }
  unfold enqueued in X. apply in_flat_map in X. destruct X as (z & Hz & Hc). destruct z; try contradiction. destruct r; try contradiction. destruct (eq_dec cid0 cid); [subst|contradiction]. destruct Hc as [->|[]]. eauto.
Qed.
Lemma crash_src evs s L cid : run sb_init evs = (s, L) -> In (UCrash cid) L -> exists f c, In f (calls L) /\ meaning f = [cmd_of c] /\ 2 ^ 16 <= blen (ctl_topic c).
Proof.
  intros R H. pose proof (run_connI token ingress initial D cid evs s L R) as CI. apply in_split in H. destruct H as (b & a & ->).
  destruct (ci_ent _ _ _ _ CI (on cid b) (UCrash cid) (on cid a)) as (b' & k & Eb & Hb).
  { apply split_on. cbn. destruct (eq_dec cid cid); congruence. }
  assert (Hg : In (UGot cid k) (on cid (b ++ UCrash cid :: a))). { rewrite on_app, Eb. apply in_or_app. left. apply in_or_app. right. now left. }
  destruct (got_try _ _ _ _ (ci_cmd _ _ _ _ CI) Hg) as [r Ht]. apply in_on in Ht; [|cbn; destruct (eq_dec cid cid); congruence].
  apply (run_src _ _ _ R) in Ht. destruct (gi_cmds _ _ _ (run_GI token ingress initial D _ _ _ R)) as (tail & E & Tl).
  assert (Hm : In (cmd_of k) (flat_map meaning (calls (b ++ UCrash cid :: a)) ++ tail)) by (rewrite <- E; apply in_or_app; now left).
  apply in_app_or in Hm. destruct Hm as [Hm|Hm].
  - apply in_flat_map in Hm. destruct Hm as (f & Hf & Hm). exists f, k. split; [exact Hf|]. split; [|exact Hb]. destruct f as [t x|t x|t [x|]|t [x|]]; cbn in Hm |- *; try contradiction; destruct Hm as [Hm|[]]; congruence.
  - exfalso. destruct Tl as [[-> _]|[_ [->| ->]]]; [destruct Hm|destruct Hm|]. destruct Hm as [Hm|[]]. destruct k; discriminate.
Qed.

(** ** After the drop *)
Lemma act_dropped s ev s' o : sb_dropped s = true -> act s ev = (s', o) -> sb_dropped s' = true /\ calls o = [].
Proof.
  intros Hd. destruct ev as [cid e|b now| |j q order|f| |]; cbn [sb_act].
  - unfold sb_session. destruct (mget cid (sb_conns s)) as [x|]; [|intros [= <- <-]; auto].
    destruct (sc_alive x); [|intros [= <- <-]; auto]. destruct (ss_iter cid e x) as [[x' o'] r'] eqn:E. intros [= <- <-]. split; [exact Hd|]. apply (ss_iter_plain _ _ _ _ _ _ E).
  - unfold sb_entry. destruct (mget b (sb_pubs s)) as [[cid|bo]|]; [| |intros [= <- <-]; auto].
    + destruct (mget cid (sb_conns s)) as [x|]; [|intros [= <- <-]; auto]. destruct (sc_in x) as [|m rest].
      * destruct (sc_alive x); [intros [= <- <-]; auto|]. destruct (sb_reset initial b s) as [s1 o1] eqn:R. intros [= <- <-]. destruct (reset_plain _ _ _ _ _ R) as [((_ & A & _) & _) (_ & _ & F & _)]. rewrite F. auto.
      * cbv zeta. destruct (try_decompress _ _ _) as [p|].
        -- unfold sb_pass. cbn [sb_set_conns sb_dropped sb_out]. rewrite Hd. intros [= <- <-]; auto.
        -- intros [= <- <-]; auto.
    + destruct (bo_poll now bo) as [b' [d| | |]]; try (intros [= <- <-]; auto).
      cbv zeta. destruct (jm_contains b (sb_tasks s)); [intros [= <- <-]; auto|].
      unfold sb_connect. destruct (jm_spawn _ _) as [jj w]. intros [= <- <-]. split; [exact Hd|]. destruct w; reflexivity.
  - unfold sb_next_command. destruct (sb_cmdq s) as [|cc q] eqn:Eq; [intros [= <- <-]; auto|].
    destruct (sb_command initial cc (sb_set_cmdq s q)) as [s1 o1] eqn:E. intros [= <- <-]. change (calls (UCmd cc :: o1)) with (calls o1).
    destruct cc as [t|t|b|b|]; cbn [sb_command] in E; cbv zeta in E; cbn [sb_set_cmdq sb_topics sb_pubs sb_set_topics] in E.
    + destruct (smem t (sb_topics s)); [injection E as <- <-; auto|]. destruct (tell_frame _ _ _ _ _ _ E) as ((_ & _ & F & _) & (_ & A & _) & _). rewrite F. auto.
    + destruct (smem t (sb_topics s)); [|injection E as <- <-; auto]. destruct (tell_frame _ _ _ _ _ _ E) as ((_ & _ & F & _) & (_ & A & _) & _). rewrite F. auto.
    + destruct (mem b (sb_pubs s)); [injection E as <- <-; auto|]. unfold sb_connect in E. destruct (jm_spawn _ _) as [jj w]. destruct (sb_reset initial b _) as [s3 o3] eqn:R. injection E as <- <-.
      destruct (reset_plain _ _ _ _ _ R) as [((_ & A & _) & _) (_ & _ & F & _)]. rewrite F, calls_app, A. split; [exact Hd|]. destruct w; reflexivity.
    + destruct (mget b (sb_pubs s)); [|injection E as <- <-; auto]. destruct (sb_release _ _) as [s2 o2] eqn:R. injection E as <- <-. destruct (release_plain _ _ _ _ R) as ((_ & A & _) & _). destruct (release_frame _ _ _ _ R) as (_ & _ & F & _). cbn. rewrite F. auto.
    + injection E as <- <-. auto.
  - unfold sb_join. destruct (nth_error (jm_tasks (sb_tasks s)) j) as [b|] eqn:N; [|intros [= <- <-]; auto].
    destruct q as [| |ok input]; try (intros [= <- <-]; auto).
    destruct (auth_client token ok input) as [[[| | |] w] rest]; try (intros [= <- <-]; auto).
    unfold sb_connected. cbv zeta. cbn [sb_set_tasks sb_pubs sb_next sb_topics sb_cmdq sb_out sb_dropped sb_tasks sb_stats sb_conns].
    destruct (mget b (sb_pubs s)) as [[cc|bb]|]; try (destruct (sb_greet _ _ _) as [x o1] eqn:Gr); intros [= <- <-]; auto; (split; [exact Hd|]); destruct (greet_tried _ _ _ _ _ Gr) as ((_ & A & _) & _); exact A.
  - unfold sb_call. rewrite Hd. intros [= <- <-]. auto.
  - unfold sb_take. destruct (sb_out s) as [|[[[cc b] t] p] q]; intros [= <- <-]; auto.
  - unfold sb_drop. rewrite Hd. intros [= <- <-]; auto.
Qed.
Lemma run_dropped : forall evs s s' o, sb_dropped s = true -> run s evs = (s', o) -> sb_dropped s' = true /\ calls o = [].
Proof.
  induction evs as [|ev evs IH]; intros s s' o Hd; cbn [sb_run]; [intros [= <- <-]; auto|].
  destruct (act s ev) as [s1 o1] eqn:A. destruct (run s1 evs) as [s2 o2] eqn:R. intros [= <- <-]. destruct (act_dropped _ _ _ _ Hd A) as [B C]. destruct (IH _ _ _ B R) as [B2 C2]. rewrite calls_app, C, C2. auto.
Qed.

(** ** Polls are runs *)
Lemma entries_run now : forall l s s' o p, sb_entries ingress initial D l now s = (s', o, p) -> run s (map (fun a => YEntry a now) l) = (s', o).
Proof.
  induction l as [|a l IH]; intros s s' o p; cbn [sb_entries map sb_run sb_act]; [intros [= <- <- <-]; reflexivity|].
  destruct (sb_entry ingress initial D a now s) as [[s1 o1] p1]. destruct (sb_entries ingress initial D l now s1) as [[s2 o2] p2] eqn:E. intros [= <- <- <-]. now rewrite (IH _ _ _ _ E).
Qed.
Lemma iter_run d s s' o c : sb_iter token ingress initial D d s = (s', o, c) -> exists evs, run s evs = (s', o).
Proof.
  unfold sb_iter. destruct (sb_entries ingress initial D _ (yd_now d) s) as [[s1 o1] p] eqn:E. apply entries_run in E.
  destruct p; [intros [= <- <- <-]; eauto|]. destruct (sb_next_command initial s1) as [[s2 o2] b] eqn:C.
  assert (R2 : run s1 [YCommand] = (s2, o2)) by (cbn [sb_run sb_act]; rewrite C; now rewrite app_nil_r).
  destruct b; [intros [= <- <- <-]; eexists; rewrite (run_app token ingress initial D), E, R2; reflexivity|].
  destruct (yd_join d) as [[[k r] order]|]; [|intros [= <- <- <-]; eexists; rewrite (run_app token ingress initial D), E, R2, app_nil_r; reflexivity].
  destruct (sb_join token k r order s2) as [[s3 o3] j] eqn:J. intros [= <- <- <-].
  assert (R3 : run s2 [YJoin k r order] = (s3, o3)) by (cbn [sb_run sb_act]; rewrite J; now rewrite app_nil_r).
  eexists. rewrite (run_app token ingress initial D), E. rewrite (run_app token ingress initial D [YCommand] [YJoin k r order]), R2, R3. reflexivity.
Qed.
Lemma poll_run : forall ds s s' o c, sb_poll token ingress initial D ds s = (s', o, c) -> exists evs, run s evs = (s', o).
Proof.
  induction ds as [|d ds IH]; intros s s' o c; cbn [sb_poll]; [intros [= <- <- <-]; exists []; reflexivity|].
  destruct (sb_iter token ingress initial D d s) as [[s1 o1] b] eqn:E. destruct (iter_run _ _ _ _ _ E) as [e1 R1]. destruct b; [|intros [= <- <- <-]; eauto].
  destruct (sb_poll token ingress initial D ds s1) as [[s2 o2] r] eqn:P. intros [= <- <- <-]. destruct (IH _ _ _ _ P) as [e2 R2]. exists (e1 ++ e2). now rewrite (run_app token ingress initial D), R1, R2.
Qed.
Lemma spoll_run cid : forall es s s' o r, ss_poll cid es s = (s', o, r) -> exists evs, run s evs = (s', o) /\ Forall (fun e => exists y, e = YSess cid y) evs.
Proof.
  induction es as [|e es IH]; intros s s' o r; cbn [ss_poll]; [intros [= <- <- <-]; exists []; split; [reflexivity|constructor]|].
  destruct (sb_session cid e s) as [[s1 o1] b] eqn:E. assert (R1 : run s [YSess cid e] = (s1, o1)) by (cbn [sb_run sb_act]; rewrite E; now rewrite app_nil_r).
  assert (K : forall r', (s1, o1, r') = (s', o, r) -> exists evs, run s evs = (s', o) /\ Forall (fun e => exists y, e = YSess cid y) evs).
  { intros r' [= <- <- <-]. exists [YSess cid e]. split; [exact R1|repeat constructor; eauto]. }
  destruct b as [[| | |]|]; try apply K. destruct (ss_poll cid es s1) as [[s2 o2] r2] eqn:P. intros [= <- <- <-]. destruct (IH _ _ _ _ P) as (e2 & R2 & F). exists (YSess cid e :: e2).
  split; [|constructor; eauto]. change (YSess cid e :: e2) with ([YSess cid e] ++ e2). now rewrite (run_app token ingress initial D), R1, R2.
Qed.

(** ** The idle driver *)
(** An entry that makes no progress, for a connection that stays. *)
Lemma entry_idle a cid now s s' o b : SI s -> sb_entry ingress initial D b now s = (s', o, false) -> mget a (sb_pubs s) = Some (PActive cid) -> (forall m, ~ In (UUndecodable cid m) o) ->
  mget a (sb_pubs s') = Some (PActive cid) /\ mget cid (sb_conns s') = mget cid (sb_conns s) /\ (b = a -> exists x, mget cid (sb_conns s) = Some x /\ sc_in x = []).
Proof.
  intros HS H Ga Nu. revert H. unfold sb_entry. destruct (mget b (sb_pubs s)) as [[c|bo]|] eqn:Gb.
  - destruct (si_act _ HS _ _ Gb) as (x & Gx & Ax & Hx). rewrite Gx. destruct (sc_in x) as [|m rest] eqn:Ei.
    + destruct (sc_alive x); [|destruct (sb_reset initial b s); discriminate]. intros [= <- <-]. repeat (split; [auto|]). intros ->. assert (c = cid) by congruence. subst c. eauto.
    + cbv zeta. destruct (try_decompress _ _ _) as [p|]; [destruct (sb_pass _ _ _ _ _ _); discriminate|]. intros [= <- <-].
      assert (N : c <> cid) by (intros ->; apply (Nu m); now left). cbn. rewrite mget_set_ne by congruence. repeat (split; [auto|]). intros ->. congruence.
  - assert (N : b <> a) by congruence. destruct (bo_poll now bo) as [b' [d| | |]].
    + cbv zeta. destruct (jm_contains b (sb_tasks s)); [discriminate|]. destruct (sb_connect _ _); discriminate.
    + intros [= <- <-]. cbn. rewrite mget_del_ne by congruence. repeat (split; [auto|]). congruence.
    + intros [= <- <-]. cbn. rewrite mget_set_ne by congruence. repeat (split; [auto|]). congruence.
    + intros [= <- <-]. repeat (split; [auto|]). congruence.
  - intros [= <- <-]. repeat (split; [auto|]). congruence.
Qed.
Lemma entries_idle a cid now : forall l s s' o, SI s -> sb_entries ingress initial D l now s = (s', o, false) -> mget a (sb_pubs s) = Some (PActive cid) -> (forall m, ~ In (UUndecodable cid m) o) ->
  mget a (sb_pubs s') = Some (PActive cid) /\ mget cid (sb_conns s') = mget cid (sb_conns s) /\ (In a l -> exists x, mget cid (sb_conns s) = Some x /\ sc_in x = []).
Proof.
  induction l as [|b l IH]; intros s s' o HS; cbn [sb_entries].
  - intros [= <- <-] Ga _. repeat (split; [auto|]). intros [].
  - destruct (sb_entry ingress initial D b now s) as [[s1 o1] p1] eqn:E1. destruct (sb_entries ingress initial D l now s1) as [[s2 o2] p2] eqn:E2. intros [= <- <- Ep] Ga Nu.
    destruct p1; [discriminate|]. cbn in Ep. subst p2. destruct (entry_step ingress initial D _ _ _ _ _ _ HS E1) as [HS1 _].
    destruct (entry_idle a cid _ _ _ _ _ HS E1 Ga) as (A & B & C); [intros m Hi; apply (Nu m), in_or_app; now left|].
    destruct (IH _ _ _ HS1 E2 A) as (A2 & B2 & C2); [intros m Hi; apply (Nu m), in_or_app; now right|].
    split; [exact A2|]. split; [congruence|]. rewrite B in C2. intros [->|Hi]; auto.
Qed.
(** [held] goes backwards over entries without progress. *)
Lemma entries_held now : forall l s s' o p, SI s -> sb_entries ingress initial D l now s = (s', o, p) -> SI s' /\
  (forall a cid, mget a (sb_pubs s') = Some (PActive cid) -> mget a (sb_pubs s) = Some (PActive cid)).
Proof.
  induction l as [|b l IH]; intros s s' o p HS; cbn [sb_entries].
  - intros [= <- <- <-]. auto.
  - destruct (sb_entry ingress initial D b now s) as [[s1 o1] p1] eqn:E1. destruct (sb_entries ingress initial D l now s1) as [[s2 o2] p2] eqn:E2. intros [= <- <- Ep].
    destruct (entry_step ingress initial D _ _ _ _ _ _ HS E1) as [HS1 _]. destruct (IH _ _ _ _ HS1 E2) as [HS2 A]. split; [exact HS2|]. intros a cid Ga. apply A in Ga. clear -Ga E1.
    revert E1 Ga. unfold sb_entry. destruct (mget b (sb_pubs s)) as [[c|bo]|] eqn:Gb; [| |intros [= <- <- <-]; auto].
    + destruct (mget c (sb_conns s)) as [x|]; [|intros [= <- <- <-]; auto]. destruct (sc_in x).
      * destruct (sc_alive x); [intros [= <- <- <-]; auto|]. unfold sb_reset. destruct (sb_release _ s) as [s3 o3] eqn:R. intros [= <- <- <-]. cbn. destruct (release_pubs _ _ _ _ R) as [-> _]. rewrite mget_set. destruct (eq_dec a b); [discriminate|auto].
      * cbv zeta. destruct (try_decompress _ _ _) as [q|]; [|intros [= <- <- <-]; auto]. unfold sb_pass. cbn [sb_set_conns sb_dropped sb_out]. destruct (sb_dropped s); [|destruct (_ <? _)]; intros [= <- <- <-]; auto.
    + destruct (bo_poll now bo) as [b' [d| | |]].
      * cbv zeta. destruct (jm_contains b (sb_tasks s)); [|unfold sb_connect; destruct (jm_spawn _ _) as [jj w]]; intros [= <- <- <-]; cbn; rewrite mget_set; (destruct (eq_dec a b); [discriminate|auto]).
      * intros [= <- <- <-]. cbn. rewrite mget_del. destruct (eq_dec a b); [discriminate|auto].
      * intros [= <- <- <-]. cbn. rewrite mget_set. destruct (eq_dec a b); [discriminate|auto].
      * intros [= <- <- <-]; auto.
Qed.

Lemma iter_idle cid d s s' o : SI s -> sb_iter token ingress initial D d s = (s', o, false) -> (forall m, ~ In (UUndecodable cid m) o) ->
  forall x, mget cid (sb_conns s') = Some x -> sc_held x = true -> sc_in x = [].
Proof.
  intros HS. unfold sb_iter. destruct (sb_entries ingress initial D _ (yd_now d) s) as [[s1 o1] p] eqn:E. destruct p; [discriminate|].
  destruct (sb_next_command initial s1) as [[s2 o2] b] eqn:C. destruct b; [discriminate|].
  assert (X : s2 = s1 /\ o2 = []). { unfold sb_next_command in C. destruct (sb_cmdq s1); [injection C as <- <-; auto|]. destruct (sb_command _ _ _); discriminate. } destruct X as [-> ->].
  assert (J : forall s3 o3 j, (match yd_join d with Some (k, r, order) => sb_join token k r order s1 | None => (s1, [], false) end) = (s3, o3, j) -> j = false -> sb_conns s3 = sb_conns s1).
  { intros s3 o3 j. destruct (yd_join d) as [[[k r] order]|]; [|intros [= <- <- <-]; auto]. unfold sb_join. destruct (nth_error _ k) as [a|]; [|intros [= <- <- <-]; auto].
    destruct r; try (intros [= <- <- <-]; (discriminate || reflexivity)). destruct (auth_client token send_ok input) as [[[| | |] w] rest]; try (intros [= <- <- <-]; (discriminate || reflexivity)).
    destruct (sb_connected _ _ _); intros [= <- <- <-]; discriminate. }
  destruct (match yd_join d with Some (k, r, order) => sb_join token k r order s1 | None => (s1, [], false) end) as [[s3 o3] j] eqn:EJ. intros [= <- <- Hj] Nu x Gx Hx.
  rewrite (J _ _ _ eq_refl Hj) in Gx. destruct (entries_held _ _ _ _ _ _ HS E) as [HS1 Bk]. pose proof (si_held _ HS1 _ _ Gx Hx) as Ga. apply Bk in Ga.
  destruct (entries_idle _ _ _ _ _ _ _ HS E Ga) as (_ & Ec & K); [intros m Hi; apply (Nu m), in_or_app; now left|].
  destruct K as (y & Gy & Ei); [apply arrange_in, mget_keys; congruence|]. congruence.
Qed.
Lemma poll_idle cid : forall ds s s' o, SI s -> sb_poll token ingress initial D ds s = (s', o, true) -> (forall m, ~ In (UUndecodable cid m) o) ->
  forall x, mget cid (sb_conns s') = Some x -> sc_held x = true -> sc_in x = [].
Proof.
  induction ds as [|d ds IH]; intros s s' o HS; cbn [sb_poll]; [discriminate|].
  destruct (sb_iter token ingress initial D d s) as [[s1 o1] b] eqn:E. destruct (iter_run _ _ _ _ _ E) as [e1 R1]. destruct b.
  - destruct (sb_poll token ingress initial D ds s1) as [[s2 o2] r] eqn:P. intros [= <- <- ->] Nu.
    assert (HS1 : SI s1) by exact (proj2 (run_inv_gen token ingress initial D (fun _ _ => True) ltac:(auto) e1 [] s s1 o1 HS Logic.I R1)).
    eapply IH; eauto. intros m Hi. apply (Nu m), in_or_app. now right.
  - intros [= <- <-] Nu. eapply iter_idle; eauto.
Qed.
End P.
