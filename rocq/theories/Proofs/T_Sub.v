(** Subscriber socket: C37 .. C48, C57, C64, C65 (subscriber side). *)
From Coq Require Import List NArith Permutation.
From Verif Require Import Model.Base Model.Map Model.Stats Model.Framed Model.WirePubSub Model.WireAuth Model.Compression Model.Handshake Model.Utf8 Model.Backoff Model.JoinMap Model.PubDriver Model.SubDriver
  Spec.Utf8Spec Spec.BackoffSpec Spec.ReqSpec Spec.SubSpec.
Import ListNotations.
Open Scope N_scope.
(*HEADEND*)
From Coq Require Import ZArith ZifyBool ZifyNat ZifyN.
From Verif Require Proofs.PubDriverP2.
From Verif Require Import Proofs.BaseP Proofs.MapP Proofs.Utf8P Proofs.SubDriverP Proofs.SubDriverP2 Proofs.SubDriverP3 Proofs.SubDriverP4 Proofs.SubDriverP5 Proofs.SubDriverP6 Proofs.SubDriverP7 Proofs.SubDriverP8 Proofs.SubDriverP9 Proofs.SubDriverP10.
Local Open Scope N_scope.

Ltac evals := cbv zeta; repeat match goal with |- _ /\ _ => split end; vm_compute; repeat (first [reflexivity|left; reflexivity|right]).
Ltac ab := cbn; destruct (eq_dec _ _); congruence.

(*@prop C37 (what holds): in every history the commands the driver processed, followed by those waiting in the command channel, are the
    successful calls in order (plus the shutdown on drop); a session takes the commands sent to it in order; each command it takes gives at most one frame,
    and no other frames are written; and if the connection never refused a frame for the moment (no back-pressure), the frames
    are in the order of the commands. *)
Lemma C37_order_holds_without_back_pressure_partial_pf :
  forall token ingress initial D evs s log cid,
  sb_run token ingress initial D sb_init evs = (s, log) ->
  (exists tail, commands log ++ sb_cmdq s = flat_map meaning (calls log) ++ tail /\ (tail = [] \/ tail = [CShutdown] /\ In UDropped log)) /\
  (exists rest, enqueued cid log = got cid log ++ rest) /\
  (exists unsent, Permutation (map ps_topic (wired cid log) ++ unsent) (map ctl_topic (got cid log))) /\
  (~ In (UBusy cid) log -> exists unsent, map ps_topic (wired cid log) ++ unsent = map ctl_topic (enqueued cid log)).
Proof.
  intros token ingress initial D evs s L cid R. pose proof (run_connI token ingress initial D cid _ _ _ R) as CI. pose proof (run_GI token ingress initial D _ _ _ R) as G.
  split; [|].
  - destruct (gi_cmds _ _ _ G) as (tail & E & T). exists tail. split; [exact E|]. destruct T as [[-> _]|[Hd [->| ->]]]; auto. right. split; [reflexivity|]. now apply (gi_drop _ _ _ G).
  - assert (Bz : In (UBusy cid) (on cid L) <-> In (UBusy cid) L) by (apply in_on; ab).
    pose proof (ci_cmd _ _ _ _ CI) as C1. pose proof (ci_wire _ _ _ _ CI) as C2. unfold cmdI in C1. unfold wireI in C2. destruct (mget cid (sb_conns s)) as [x|].
    + destruct C1 as (_ & (r & C1) & _). destruct C2 as (_ & _ & _ & w & C2 & C3). rewrite enqueued_on, got_on in C1. rewrite wired_on, got_on in C2, C3. split; [eauto|]. split; [eauto|].
      intros Nb. rewrite <- Bz in Nb. exists (w ++ map ctl_topic r). rewrite app_assoc, C3, C1, map_app by exact Nb. reflexivity.
    + rewrite <- (enqueued_on cid L), <- (got_on cid L), <- (wired_on cid L), C1. split; [exists []; reflexivity|]. split; [exists []; constructor|]. exists []. reflexivity.
Qed.

(*@prop C37 is violated: subscribe("a"), then unsubscribe("a"), while the connection is not ready for writing: the session puts the frame it could
    not write at the end of its queue, so the publisher gets the unsubscribe first and the subscribe last (and stays subscribed). *)
Lemma C37_commands_reordered_refuted_pf :
  let r := sx_run [YApi (ApConnect true (Some sx_addr)); YCommand; YJoin 0 (JConn true []) []; YApi (ApSub true [x61]); YCommand;
                   YSess 0 sx_stuck; YApi (ApUnsub true [x61]); YCommand; YSess 0 sx_stuck; YSess 0 sx_stuck; YSess 0 (sx_env PnPending)] in
  calls (snd r) = [ApConnect true (Some sx_addr); ApSub true [x61]; ApUnsub true [x61]] /\
  enqueued 0 (snd r) = [SSub [x61]; SUnsub [x61]] /\
  map ps_topic (wired 0 (snd r)) = [unsub_prefix ++ [x61]; sub_prefix ++ [x61]].
Proof. evals. Qed.

(*@example *)
Lemma C37_example_pf :
  let r := sx_run (sx_open ++ [YApi (ApSub true [x62]); YApi (ApUnsub false [x61]); YCommand; YCommand] ++ repeat (YSess 0 (sx_env PnPending)) 6) in
  calls (snd r) = [ApSub true [x61]; ApConnect true (Some sx_addr); ApSub true [x62]; ApUnsub false [x61]] /\
  map ps_topic (wired 0 (snd r)) = [sub_prefix ++ [x61]; sub_prefix ++ [x62]; unsub_prefix ++ [x61]].
Proof. evals. Qed.

(*@prop C38 (what holds): in every history, when a connection is established, the topics subscribed at that time are, in some order, sent to its
    session at once: the first 64 of them are passed on, the others are refused because its command channel is full. *)
Lemma C38_first_64_topics_partial_pf :
  forall token ingress initial D evs s before after cid a,
  sb_run token ingress initial D sb_init evs = (s, before ++ UOpen cid a :: after) ->
  exists ts rest, NoDup ts /\ (forall t, In t ts <-> subscribed (commands before) t) /\
    after = map (fun t => UTry cid (SSub t) TSent) (firstn 64 ts) ++ map (fun t => UTry cid (SSub t) TFull) (skipn 64 ts) ++ rest.
Proof.
  intros token ingress initial D evs s b r k a R.
  destruct (run_split_open token ingress initial D _ _ _ _ _ _ _ SI_init R) as (evs1 & ev & evs2 & s1 & s2 & x & order & o & L3 & _ & R1 & G & -> & _).
  pose proof (run_SI _ _ _ _ _ _ _ R1) as HS. pose proof (run_GI token ingress initial D _ _ _ R1) as GI1.
  exists (arrange order (sb_topics s1)), L3. split; [apply arrange_nodup, (si_top _ HS)|]. split.
  - intros t. rewrite arrange_in, (gi_top _ _ _ GI1 t). apply after_subscribed.
  - apply greet_sent in G; [|reflexivity|cbn; lia]. rewrite G, <- app_assoc. reflexivity.
Qed.

(*@prop C38 is violated: with 65 subscribed topics, the newly connected publisher gets only 64 of the subscriptions: one is dropped, and is not sent later. *)
Lemma C38_65th_topic_lost_refuted_pf :
  let topic := fun n => repeat x61 n in
  let r := sx_run (map (fun n => YApi (ApSub true (topic n))) (seq 1 65) ++ repeat YCommand 65 ++
                   [YApi (ApConnect true (Some sx_addr)); YCommand; YJoin 0 (JConn true []) (map topic (seq 1 65))] ++ repeat (YSess 0 (sx_env PnPending)) 200) in
  map ctl_topic (enqueued 0 (snd r)) = map (fun n => sub_prefix ++ topic n) (seq 1 64) /\
  map ps_topic (wired 0 (snd r)) = map (fun n => sub_prefix ++ topic n) (seq 1 64) /\
  flat_map (fun x => match x with UTry _ (SSub t) TFull => [t] | _ => [] end) (snd r) = [topic 65%nat] /\ subscribed (commands (snd r)) (topic 65%nat) /\ session_work 0 (fst r) = 0%nat.
Proof.
  cbv zeta. split; [vm_compute; reflexivity|]. split; [vm_compute; reflexivity|]. split; [vm_compute; reflexivity|]. split; [|vm_compute; reflexivity].
  exists (map (fun n => CSub (repeat x61 n)) (seq 1 64)), [CConnect sx_addr]. split; [vm_compute; reflexivity|]. intros [H|[]]. discriminate.
Qed.

(*@example *)
Lemma C38_example_pf :
  let r := sx_run ([YApi (ApSub true [x61]); YApi (ApSub true [x62]); YApi (ApUnsub true [x61])] ++ skipn 1 sx_open ++ [YCommand; YCommand; YJoin 0 (JConn true []) []]) in
  enqueued 0 (snd r) = [SSub [x62]] /\ tried 0 (snd r) = [SSub [x62]].
Proof. evals. Qed.

(*@prop C39: in every history, the set of topics the driver knows is the set of topics subscribed by the processed commands; the commands sent to the
    session of a connection the driver holds are exactly: one subscribe for each topic subscribed when it was opened, and then one command for each
    processed command that changes the set; and a connection the driver has dropped gets no command any more. *)
Lemma C39_subscriptions_are_a_set_pf :
  forall token ingress initial D evs s log,
  sb_run token ingress initial D sb_init evs = (s, log) ->
  NoDup (sb_topics s) /\ (forall t, In t (sb_topics s) <-> subscribed (commands log) t) /\
  (forall cid a, In (UOpen cid a) log -> ~ driver_closed cid log -> exists before after ts,
     log = before ++ UOpen cid a :: after /\ NoDup ts /\ (forall t, In t ts <-> subscribed (commands before) t) /\
     tried cid log = map SSub ts ++ changes ts (commands after)) /\
  (forall before cid c r after, log = before ++ UTry cid c r :: after -> ~ driver_closed cid before).
Proof.
  intros token ingress initial D evs s L R. pose proof (run_SI _ _ _ _ _ _ _ R) as HS. pose proof (run_GI token ingress initial D _ _ _ R) as G.
  split; [apply (si_top _ HS)|]. split; [intros t; rewrite (gi_top _ _ _ G t); apply after_subscribed|]. split.
  - intros k a Ho Nc. destruct (open_state token ingress initial D _ _ _ _ _ R Ho) as (x & Gx & Ax & _ & Hc & _).
    assert (Hh : sc_held x = true) by (destruct (sc_held x); [reflexivity|exfalso; apply Nc, Hc; reflexivity]).
    destruct (gi_tried _ _ _ G _ _ Gx Hh) as (b & a0 & r & ts & E & Nd & Sm & Tr & _). exists b, r, ts.
    assert (a0 = a) as <-. { apply (open_once token ingress initial D _ _ _ k a0 a R); [rewrite E; apply in_or_app; right; now left|exact Ho]. }
    split; [exact E|]. split; [exact Nd|]. split; [|exact Tr]. intros t. rewrite (Sm t). apply after_subscribed.
  - intros b k c r a ->. pose proof (ci_ent _ _ _ _ (run_connI token ingress initial D k _ _ _ R) (on k b) (UTry k c r) (on k a)) as E.
    destruct E as [E _]; [apply split_on; ab|]. now rewrite closed_on in E.
Qed.

(*@example *)
Lemma C39_example_pf :
  let r := sx_run (sx_open ++ map YApi [ApSub true [x61]; ApSub true [x62]; ApUnsub true [x63]; ApUnsub true [x61]; ApSub true [x62]] ++ repeat YCommand 5) in
  tried 0 (snd r) = [SSub [x61]; SSub [x62]; SUnsub [x61]] /\ sb_topics (fst r) = [[x62]].
Proof. evals. Qed.

(*@prop C40 (what holds): if no connection attempt for the endpoint is in progress when the driver processes the disconnect, then, until connect() is called again,
    nothing from it is passed on any more, no connection to it is started or established, the application gets only messages that had been passed to the socket before, and
    its statistics are gone (unless the driver had given up on this endpoint before). *)
Lemma C40_disconnect_without_attempt_in_progress_partial_pf :
  forall token ingress initial D evs s before after a,
  sb_run token ingress initial D sb_init evs = (s, before ++ UCmd (CDisconnect a) :: after) ->
  attempts a before = attempts_ended a before -> ~ In (CConnect a) (commands after) ->
  (forall cid m p r, ~ In (UDeliver cid m a p r) after) /\ (forall cid, ~ In (UOpen cid a) after) /\ ~ In (UConnect a) after /\
  (forall cid t p, In (UYield cid a t p) after -> In (cid, a, t, p) (queued before)) /\
  (~ In (UGaveUp a) before -> sb_bytes_rx a s = None /\ sb_latency a s = None).
Proof.
  intros token ingress initial D evs s b r a R Ha Hn. destruct (disconnect_absent token ingress initial D _ _ _ _ _ R Ha Hn) as [F St]. rewrite Forall_forall in F.
  assert (Nd : forall cid m p x, ~ In (UDeliver cid m a p x) r) by (intros cid m p x Hi; apply F in Hi; cbn in Hi; congruence).
  split; [exact Nd|]. split; [intros cid Hi; apply F in Hi; cbn in Hi; congruence|]. split; [intros Hi; apply F in Hi; cbn in Hi; congruence|]. split.
  - intros cid t p Hi. pose proof (run_GI token ingress initial D _ _ _ R) as G. destruct (gi_out2 _ _ _ G) as [q E].
    assert (Hy : In (cid, a, t, p) (yields (b ++ UCmd (CDisconnect a) :: r))). { unfold yields. apply in_flat_map. exists (UYield cid a t p). split; [apply in_or_app; right; right; exact Hi|now left]. }
    assert (Hq : In (cid, a, t, p) (queued (b ++ UCmd (CDisconnect a) :: r))) by (rewrite E; apply in_or_app; auto).
    rewrite queued_app in Hq. apply in_app_or in Hq. destruct Hq as [|Hq]; [assumption|]. exfalso. unfold queued in Hq. apply in_flat_map in Hq. destruct Hq as (z & [<-|Hz] & Hq); [destruct Hq|].
    destruct z; try (destruct Hq; fail). destruct r0; [|destruct Hq..]. destruct Hq as [Hq|[]]. injection Hq as <- <- <- <-. eapply Nd; eauto.
  - intros Hg. specialize (St Hg). unfold sb_bytes_rx, sb_latency. now rewrite St.
Qed.

(*@prop C40 is violated (connection attempt in progress): disconnect() while connecting does not stop the attempt: it succeeds, a session is started, and its messages are delivered. *)
Lemma C40_connect_in_progress_refuted_pf :
  let r := sx_run ([YApi (ApSub true [x61]); YApi (ApConnect true (Some sx_addr)); YCommand; YCommand; YApi (ApDisconnect true (Some sx_addr)); YCommand] ++
                   [YJoin 0 (JConn true []) []; YSess 0 (sx_env (sx_msg x00 [x07])); YEntry sx_addr 10; YTake]) in
  exists before after, snd r = before ++ UCmd (CDisconnect sx_addr) :: after /\ commands after = [] /\ yielded 0 after = [(sx_addr, [x61], [x07])] /\
  sb_bytes_rx sx_addr (fst r) = Some 1.
Proof.
  cbv zeta. exists (firstn 7 (snd (sx_run ([YApi (ApSub true [x61]); YApi (ApConnect true (Some sx_addr)); YCommand; YCommand; YApi (ApDisconnect true (Some sx_addr)); YCommand])))).
  eexists. split; [vm_compute; reflexivity|]. evals.
Qed.

(*@prop C40 is violated (messages already received): a message that was received but not yet taken by the application is still delivered after the disconnect. *)
Lemma C40_queued_message_refuted_pf :
  let r := sx_run (sx_open ++ [YSess 0 (sx_env (sx_msg x00 [x07])); YEntry sx_addr 10; YApi (ApDisconnect true (Some sx_addr)); YCommand] ++ [YTake]) in
  exists before, snd r = before ++ [UCmd (CDisconnect sx_addr); UClosed 0 []; UYield 0 sx_addr [x61] [x07]].
Proof. cbv zeta. exists (firstn 11 (snd (sx_run (sx_open ++ [YSess 0 (sx_env (sx_msg x00 [x07])); YEntry sx_addr 10; YApi (ApDisconnect true (Some sx_addr)); YCommand])))). vm_compute. reflexivity. Qed.

(*@example *)
Lemma C40_example_pf :
  let r := sx_run (sx_open ++ [YSess 0 (sx_env (sx_msg x00 [x07])); YEntry sx_addr 10; YTake; YSess 0 (sx_env (sx_msg x00 [x08])); YApi (ApDisconnect true (Some sx_addr)); YCommand;
                   YEntry sx_addr 20; YSess 0 (sx_env (sx_msg x00 [x09])); YTake]) in
  yielded 0 (snd r) = [(sx_addr, [x61], [x07])] /\ attempts sx_addr (snd r) = 1%nat /\ attempts_ended sx_addr (snd r) = 1%nat /\ driver_closed 0 (snd r) /\ sb_bytes_rx sx_addr (fst r) = None.
Proof. cbv zeta. split; [vm_compute; reflexivity|]. split; [vm_compute; reflexivity|]. split; [vm_compute; reflexivity|]. split; [|vm_compute; reflexivity]. eexists. vm_compute. do 20 (first [left; reflexivity|right]). Qed.

(*@prop C41 is violated: a session never ends because of its connection: whatever the connection answers (in particular: the end of the stream, from now on and for ever), as long as the application does
    not disconnect and the session does not crash on an oversized topic, the session does not end, and the driver does not drop the connection, reset the
    publisher or start a new connection attempt. *)
Lemma C41_lost_publisher_not_noticed_refuted_pf :
  forall token ingress initial D evs1 s1 log1 cid a evs2 s2 log2,
  sb_run token ingress initial D sb_init evs1 = (s1, log1) -> In (UOpen cid a) log1 -> ~ session_ended cid log1 -> ~ driver_closed cid log1 ->
  sb_run token ingress initial D s1 evs2 = (s2, log2) -> ~ In (CDisconnect a) (commands log2) -> ~ In (UCrash cid) log2 ->
  ~ In (UEnd cid) log2 /\ ~ driver_closed cid log2 /\ ~ In (UReset a) log2 /\ ~ In (UConnect a) log2.
Proof.
  intros token ingress initial D evs1 s1 L1 k a evs2 s2 L2 R1 Ho Ne Nc R2 Nd Nk. pose proof (run_SI _ _ _ _ _ _ _ R1) as HS.
  destruct (open_state token ingress initial D _ _ _ _ _ R1 Ho) as (x & Gx & Ax & Hal & Hc & Hp).
  assert (Hh : sc_held x = true) by (destruct (sc_held x); [reflexivity|exfalso; apply Nc, Hc; reflexivity]).
  assert (Al : sc_alive x = true) by (destruct (sc_alive x); [reflexivity|exfalso; apply Ne, Hal; reflexivity]).
  destruct (run_stays token ingress initial D a k _ _ _ _ HS R2) as [_ F]; [split; eauto|exact Nd|exact Nk|]. rewrite Forall_forall in F.
  split; [intros Hi; apply F in Hi; cbn in Hi; congruence|]. split; [intros [l Hi]; apply F in Hi; cbn in Hi; congruence|]. split; intros Hi; apply F in Hi; cbn in Hi; congruence.
Qed.

(*@prop C41 is violated, concretely: the publisher closes the connection; the session sees the end of the stream (then errors), is polled again and again, the driver too, much later: nothing happens. *)
Lemma C41_eof_ignored_refuted_pf :
  let r := sx_run (sx_open ++ repeat (YSess 0 (sx_env PnEof)) 5 ++ [YSess 0 (sx_env PnErr); YEntry sx_addr 1000000000000; YSess 0 (sx_env PnEof); YEntry sx_addr 2000000000000]) in
  skipn 7 (snd r) = [UTry 0 (SSub [x61]) TSent; UGot 0 (SSub [x61]); UWire 0 (match ps_new_sub 5 [x61] with Some m => m | None => Build_ps_msg (Build_ps_header x00 0 [] 0 0 0) [] end) true; URecvErr 0] /\
  mget sx_addr (sb_pubs (fst r)) = Some (PActive 0).
Proof. evals. Qed.

(*@prop C41 (what holds): once a session has ended (by crashing) and all its messages have been taken, the driver's next pass resets the publisher; and then, if no attempt
    is in progress and none has panicked, it starts a connection attempt as soon as it looks after the initial back-off. *)
Lemma C41_ended_session_is_redialled_partial_pf :
  forall token ingress initial D evs s log cid a now,
  sb_run token ingress initial D sb_init evs = (s, log) -> In (UOpen cid a) log -> session_ended cid log -> ~ driver_closed cid log ->
  map tmsg_of (accepted cid log) = taken cid log ->
  exists s', sb_act token ingress initial D s (YEntry a now) = (s', [UClosed cid []; UReset a]) /\
    (attempts a log = attempts_ended a log -> ~ In (UTaskPanic a) log -> 2 * initial <= longest ->
     forall t1 t2, t1 + initial <= t2 -> In (UConnect a) (snd (sb_run token ingress initial D s' [YEntry a t1; YEntry a t2]))).
Proof.
  intros token ingress initial D evs s L k a now R Ho He Nc Eq.
  destruct (open_state token ingress initial D _ _ _ _ _ R Ho) as (x & Gx & Ax & Hal & Hc & Hp).
  assert (Hh : sc_held x = true) by (destruct (sc_held x); [reflexivity|exfalso; apply Nc, Hc; reflexivity]). specialize (Hp Hh). apply Hal in He.
  assert (Ei : sc_in x = []). { pose proof (ci_in _ _ _ _ (run_connI token ingress initial D k _ _ _ R)) as I. unfold inI in I. rewrite Gx in I. destruct I as (I & _). specialize (I Hh). rewrite accepted_on, taken_on, Eq in I.
    rewrite <- (app_nil_r (taken k L)) in I at 1. apply app_inv_head in I. auto. }
  cbn [sb_act]. unfold sb_entry at 1. rewrite Hp, Gx, Ei, He. unfold sb_reset, sb_release. rewrite Hp, Gx, Ei. eexists. split; [reflexivity|].
  intros Ha Np Hd t1 t2 Ht.
  assert (Nt : jm_contains a (sb_tasks s) = false).
  { unfold jm_contains. apply smem_false. intros Hi. destruct (run_keys token ingress initial D _ _ _ R a Hi) as [Hi2|]; [|auto].
    destruct (run_TI token ingress initial D _ _ _ R) as [_ T]. specialize (T a). rewrite Ha in T. apply (count_occ_In eq_dec) in Hi2. lia. }
  assert (St : forall s0 t, sb_tasks s0 = sb_tasks s -> forall b b' d, mget a (sb_pubs s0) = Some (PInactive b) -> bo_poll t b = (b', BYield d) -> In (UConnect a) (snd (sb_act token ingress initial D s0 (YEntry a t)))).
  { intros s0 t Et b b' d G0 P0. cbn [sb_act]. unfold sb_entry. rewrite G0, P0. cbv zeta. rewrite Et, Nt. unfold sb_connect. cbn [sb_set_pubs sb_tasks]. rewrite Et. unfold jm_spawn. unfold jm_contains in Nt. rewrite Nt. cbn. now left. }
  set (s1 := sb_set_pubs _ _).
  assert (G1 : mget a (sb_pubs s1) = Some (PInactive (bo_new initial MAX_RETRIES))) by (subst s1; cbn [sb_set_pubs sb_pubs]; apply mget_set_eq).
  assert (Cap : DURATION_MAX <? initial * 2 = false) by (change DURATION_MAX with longest; apply N.ltb_ge; lia).
  assert (T1 : sb_tasks s1 = sb_tasks s) by reflexivity.
  assert (B : forall t b, bo_timeout b = Some (t1 + initial) -> bo_cur b = initial -> bo_count b = 0 -> bo_max b = MAX_RETRIES -> t1 + initial <= t -> exists b' d, bo_poll t b = (b', BYield d)).
  { intros t b X1 X2 X3 X4 X5. unfold bo_poll. rewrite X1. unfold bo_armed. destruct (N.leb_spec (t1 + initial) t); [|lia]. cbv zeta. rewrite X2, Cap. cbn [bo_count]. rewrite X3, X4. eexists. eexists. reflexivity. }
  destruct (N.leb_spec (t1 + initial) t1) as [Le|Gt].
  - (* no back-off at all *)
    assert (Ez : exists b' d, bo_poll t1 (bo_new initial MAX_RETRIES) = (b', BYield d)).
    { destruct (B t1 (bo_reset t1 (bo_new initial MAX_RETRIES)) eq_refl eq_refl eq_refl eq_refl Le) as (b' & d & E). exists b', d. unfold bo_poll in E. cbn [bo_timeout bo_reset bo_new bo_cur] in E. unfold bo_poll. cbn [bo_timeout bo_new]. exact E. }
    destruct Ez as (b' & d & Ez). pose proof (St s1 t1 T1 _ _ _ G1 Ez) as Hin. cbn [sb_run]. destruct (sb_act _ _ _ _ s1 (YEntry a t1)) as [sa oa]. destruct (sb_act _ _ _ _ sa _) as [sb' ob]. cbn [snd] in *. apply in_or_app. now left.
  - assert (Ez : bo_poll t1 (bo_new initial MAX_RETRIES) = (bo_reset t1 (bo_new initial MAX_RETRIES), BPending)).
    { unfold bo_poll. cbn [bo_timeout bo_new]. cbv zeta. unfold bo_armed. cbn [bo_cur bo_new]. destruct (N.leb_spec (t1 + initial) t1); [lia|reflexivity]. }
    cbn [sb_run]. assert (E1 : sb_act token ingress initial D s1 (YEntry a t1) = (sb_set_pubs s1 (mset a (PInactive (bo_reset t1 (bo_new initial MAX_RETRIES))) (sb_pubs s1)), [])).
    { cbn [sb_act]. unfold sb_entry. rewrite G1, Ez. reflexivity. }
    rewrite E1. set (s2 := sb_set_pubs s1 _). destruct (B t2 (bo_reset t1 (bo_new initial MAX_RETRIES)) eq_refl eq_refl eq_refl eq_refl Ht) as (b' & d & E2).
    assert (G2 : mget a (sb_pubs s2) = Some (PInactive (bo_reset t1 (bo_new initial MAX_RETRIES)))) by (subst s2; cbn [sb_set_pubs sb_pubs]; apply mget_set_eq).
    pose proof (St s2 t2 T1 _ _ _ G2 E2) as Hin. destruct (sb_act _ _ _ _ s2 (YEntry a t2)) as [sa oa]. cbn [snd] in *. rewrite app_nil_r. exact Hin.
Qed.

(*@prop C41 (why it is not noticed): in every history a session task ends only after the driver has dropped the connection - never because the connection was closed or failed - or crashes, right after
    taking a command with an oversized topic. *)
Lemma C41_session_end_reasons_partial_pf :
  forall token ingress initial D evs s log cid before after,
  sb_run token ingress initial D sb_init evs = (s, log) ->
  (log = before ++ UEnd cid :: after -> driver_closed cid before) /\
  (log = before ++ UCrash cid :: after -> exists c, In (UGot cid c) before /\ 2 ^ 16 <= blen (ctl_topic c)).
Proof.
  intros token ingress initial D evs s L k b a R. pose proof (ci_ent _ _ _ _ (run_connI token ingress initial D k _ _ _ R)) as E. split; intros ->.
  - specialize (E (on k b) (UEnd k) (on k a)). rewrite <- closed_on. apply E, split_on. ab.
  - destruct (E (on k b) (UCrash k) (on k a)) as (b' & c & Eb & Big); [apply split_on; ab|]. exists c. split; [|exact Big].
    apply (in_on k); [ab|]. rewrite Eb. apply in_or_app. right. now left.
Qed.

(*@example *)
Lemma C41_example_pf :
  let evs := sx_open ++ [YSess 0 (sx_env PnPending); YSess 0 (sx_env PnPending); YApi (ApSub true (repeat x61 (N.to_nat (2 ^ 16)))); YCommand; YSess 0 (sx_env PnPending)] in
  let r := sx_run evs in
  flat_map (fun x => match x with UCrash c => [c] | _ => [] end) (snd r) = [0] /\ accepted 0 (snd r) = [] /\ taken 0 (snd r) = [] /\ attempts sx_addr (snd r) = attempts_ended sx_addr (snd r) /\
  flat_map (fun x => match x with UClosed c _ => [inl c] | UReset a => [inr (inl a)] | UConnect a => [inr (inr a)] | _ => [] end) (skipn 14 (snd (sx_run (evs ++ [YEntry sx_addr 10; YEntry sx_addr 20; YEntry sx_addr 1020]))))
  = [inl 0; inr (inl sx_addr); inr (inr sx_addr)].
Proof. evals. Qed.

(*@prop C42 (what holds): whenever the driver goes to sleep, if in this poll it found no undecodable message on a connection, every message its session passed on has been taken. *)
Lemma C42_nothing_left_waiting_partial_pf :
  forall token ingress initial D evs s log ds s' o cid a,
  sb_run token ingress initial D sb_init evs = (s, log) -> sb_poll token ingress initial D ds s = (s', o, true) ->
  In (UOpen cid a) (log ++ o) -> ~ driver_closed cid (log ++ o) -> (forall m, ~ In (UUndecodable cid m) o) ->
  map tmsg_of (accepted cid (log ++ o)) = taken cid (log ++ o).
Proof.
  intros token ingress initial D evs s L ds s' o k a R P Ho Nc Nu. destruct (poll_run token ingress initial D _ _ _ _ _ P) as [evs2 R2].
  assert (R3 : sb_run token ingress initial D sb_init (evs ++ evs2) = (s', L ++ o)) by (rewrite (run_app token ingress initial D), R, R2; reflexivity).
  destruct (open_state token ingress initial D _ _ _ _ _ R3 Ho) as (x & Gx & Ax & Hal & Hc & Hp).
  assert (Hh : sc_held x = true) by (destruct (sc_held x); [reflexivity|exfalso; apply Nc, Hc; reflexivity]).
  pose proof (poll_idle token ingress initial D k ds s s' o (run_SI _ _ _ _ _ _ _ R) P Nu x Gx Hh) as Ei.
  pose proof (ci_in _ _ _ _ (run_connI token ingress initial D k _ _ _ R3)) as I. unfold inI in I. rewrite Gx in I. destruct I as (I & _). specialize (I Hh). rewrite accepted_on, taken_on, Ei, app_nil_r in I. exact I.
Qed.

(*@prop C42 is violated: an undecodable message (compression type 9) is followed by a good one; the driver takes the first, makes no progress and goes to sleep with the second one still waiting. *)
Lemma C42_undecodable_message_stalls_refuted_pf :
  let r := sx_run (sx_open ++ [YSess 0 (sx_env (sx_msg x09 [x01])); YSess 0 (sx_env (sx_msg x00 [x02]))]) in
  exists s' o, sb_poll None 4 1000 sx_D [mkYd 10 [sx_addr] None] (fst r) = (s', o, true) /\
  map ps_payload (accepted 0 (snd r ++ o)) = [[x01]; [x02]] /\ map tm_payload (taken 0 (snd r ++ o)) = [[x01]] /\ queued (snd r ++ o) = [].
Proof. cbv zeta. eexists. eexists. split; [vm_compute; reflexivity|]. evals. Qed.

(*@example *)
Lemma C42_example_pf :
  let r := sx_run (sx_open ++ [YSess 0 (sx_env (sx_msg x00 [x01])); YSess 0 (sx_env (sx_msg x00 [x02]))]) in
  exists s' o, sb_poll None 4 1000 sx_D (repeat (mkYd 10 [] None) 3) (fst r) = (s', o, true) /\ map tm_payload (taken 0 (snd r ++ o)) = [[x01]; [x02]] /\
  queued (snd r ++ o) = [(0, sx_addr, [x61], [x01]); (0, sx_addr, [x61], [x02])].
Proof. cbv zeta. eexists. eexists. split; [vm_compute; reflexivity|]. evals. Qed.

(*@prop C43: in every history, the messages the application got from connection [cid] are, one by one and in order, images of frames received on this connection (each used at
    most once): the source is the address of the connection, the topic the frame's topic (the same one if it is valid UTF-8), the payload
    the frame's payload, decompressed as its compression type says. *)
Lemma C43_in_order_unmodified_pf :
  forall token ingress initial D evs s log cid,
  sb_run token ingress initial D sb_init evs = (s, log) ->
  exists ms, subseq ms (received_on cid log) /\
  Forall2 (fun m q => match q with (a, t, p) =>
      In (UOpen cid a) log /\ t = from_utf8_lossy (ps_topic m) /\ (utf8 (ps_topic m) -> t = ps_topic m) /\ try_decompress D (ps_ctype m) (ps_payload m) = Some p end)
    ms (yielded cid log).
Proof.
  intros token ingress initial D evs s L k R. pose proof (run_GI token ingress initial D _ _ _ R) as G. destruct (gi_out2 _ _ _ G) as [rest Eq].
  destruct (queued_images k (fun m a p => In (UOpen k a) L /\ try_decompress D (tm_ctype m) (tm_payload m) = Some p) L) as (ts & Hs & Hf).
  { intros m a p r Hi. exact (deliver_facts token ingress initial D _ _ _ _ _ _ _ _ R Hi). }
  rewrite queued_on_filter, Eq, flat_map_app, <- yielded_filter in Hf. apply Forall2_app_inv_r in Hf. destruct Hf as (t1 & t2 & F1 & _ & ->).
  assert (Ht : subseq t1 (map tmsg_of (accepted k L))).
  { eapply subseq_trans; [|apply subseq_prefix]. eapply subseq_trans; [|exact Hs].
    pose proof (ci_in _ _ _ _ (run_connI token ingress initial D k _ _ _ R)) as I. unfold inI in I. destruct (mget k (sb_conns s)) as [x|].
    - destruct I as (I1 & I2 & _). rewrite accepted_on, taken_on in I1. destruct (sc_held x); [rewrite (I1 eq_refl); apply subseq_prefix|]. destruct (I2 eq_refl) as (_ & l & _ & E). rewrite accepted_on, taken_on in E. rewrite E. apply subseq_prefix.
    - rewrite <- (taken_on k L), I. constructor. }
  destruct (subseq_map _ _ _ Ht) as (ms & Hm & ->). exists ms. split; [eapply subseq_trans; [apply accepted_subseq|exact Hm]|].
  clear - F1. revert F1. generalize (yielded k L). induction ms as [|m ms IH]; intros q F; inversion F as [|? [[a t] p] ? q' (E1 & E2 & E3) F']; subst; constructor; [|auto].
  split; [exact E2|]. split; [reflexivity|]. split; [intros U; cbn; now apply lossy_id|exact E3].
Qed.

(*@prop C43: in every history, what becomes of the frames received on a connection: a session refuses a frame only when 1024 messages wait for the driver or when the driver has dropped the connection; the messages it passes on are taken by the
    driver in order, except those still waiting or those lost when the driver dropped the connection, which happens only on a disconnect command for its address or when the session has crashed; the driver
    refuses a message it took only if it cannot be decompressed, or when [ingress] messages wait for the application, or the socket is gone; and the messages passed to the
    socket are given to the application in order, except those still waiting (or lost with the socket). *)
Lemma C43_drop_reasons_pf :
  forall token ingress initial D evs s log,
  sb_run token ingress initial D sb_init evs = (s, log) ->
  (forall before cid m now after, log = before ++ URecv cid m now TFull :: after -> blen (accepted cid before) = blen (taken cid before) + 1024) /\
  (forall before cid m now after, log = before ++ URecv cid m now TClosed :: after -> driver_closed cid before) /\
  (forall cid, exists rest, map tmsg_of (accepted cid log) = taken cid log ++ rest /\ (driver_closed cid log -> In (UClosed cid rest) log)) /\
  (forall before cid a after lost, log = before ++ UOpen cid a :: after -> In (UClosed cid lost) after -> In (CDisconnect a) (commands after) \/ In (UCrash cid) after) /\
  (forall cid m, In (UUndecodable cid m) log -> try_decompress D (tm_ctype m) (tm_payload m) = None) /\
  (forall before cid m a p after, log = before ++ UDeliver cid m a p TFull :: after -> blen (queued before) = blen (yields before) + ingress) /\
  (forall before cid m a p after, log = before ++ UDeliver cid m a p TClosed :: after -> In UDropped before) /\
  (exists rest, queued log = yields log ++ rest /\ (~ In UDropped log -> rest = sb_out s /\ blen rest <= ingress)).
Proof.
  intros token ingress initial D evs s L R. pose proof (run_GI token ingress initial D _ _ _ R) as G.
  pose proof (fun k => run_connI token ingress initial D k _ _ _ R) as CI.
  split; [|split; [|split; [|split; [|split; [|split; [|split]]]]]].
  - intros b k m now a ->. pose proof (ci_ent _ _ _ _ (CI k) (on k b) (URecv k m now TFull) (on k a)) as E. cbn [entE] in E. rewrite accepted_on, taken_on in E. apply E, split_on. ab.
  - intros b k m now a ->. pose proof (ci_ent _ _ _ _ (CI k) (on k b) (URecv k m now TClosed) (on k a)) as E. cbn [entE] in E. rewrite closed_on in E. apply E, split_on. ab.
  - intros k. pose proof (ci_in _ _ _ _ (CI k)) as I. pose proof (ci_life _ _ _ _ (CI k)) as Li. unfold inI in I. unfold lifeI in Li. destruct (mget k (sb_conns s)) as [x|].
    + destruct Li as (_ & _ & Hc). rewrite closed_on in Hc. destruct I as (I1 & I2 & _). rewrite accepted_on, taken_on in I1. destruct (sc_held x).
      * exists (sc_in x). split; [auto|]. intros Hd. apply Hc in Hd. discriminate.
      * destruct (I2 eq_refl) as (_ & l & Hl & E). rewrite accepted_on, taken_on in E. exists l. split; [exact E|]. intros _. rewrite in_on in Hl by ab. exact Hl.
    + exists []. rewrite <- (accepted_on k L), <- (taken_on k L), I. split; [reflexivity|]. intros Hd. apply closed_on in Hd. destruct Hd as [l Hd]. rewrite I in Hd. destruct Hd.
  - intros b k a r lost -> Hl. eapply (close_reason token ingress initial D); eauto.
  - intros k m Hi. apply in_split in Hi. destruct Hi as (b & a & ->). apply (ci_ent _ _ _ _ (CI k) (on k b) (UUndecodable k m) (on k a)). apply split_on. ab.
  - intros b k m a p r E. exact (gi_full _ _ _ G _ _ _ E).
  - intros b k m a p r E. exact (gi_full _ _ _ G _ _ _ E).
  - destruct (sb_dropped s) eqn:Hd.
    + destruct (gi_out2 _ _ _ G) as [r E]. exists r. split; [exact E|]. intros N. exfalso. apply N, (gi_drop _ _ _ G), Hd.
    + exists (sb_out s). split; [apply (gi_out _ _ _ G Hd)|]. intros _. split; [reflexivity|apply (gi_outcap _ _ _ G)].
Qed.

(*@example *)
Lemma C43_example_pf :
  let r := sx_run (sx_open ++ flat_map (fun n => [YSess 0 (sx_env (sx_msg (if Nat.eqb n 3 then x05 else x00) (repeat x07 n)))]) (seq 1 7) ++ repeat (YEntry sx_addr 10) 7 ++ repeat YTake 7) in
  map (fun q => length (snd q)) (yielded 0 (snd r)) = [1; 2; 4; 5]%nat /\ map (fun m => length (ps_payload m)) (received_on 0 (snd r)) = seq 1 7.
Proof. evals. Qed.

(*@prop C44: every call of subscribe, try_subscribe, unsubscribe or try_unsubscribe returns ReservedTopic, and changes nothing, iff the topic starts with "MSG". *)
Lemma C44_reserved_topics_refused_pf :
  forall f t s s' o,
  (exists try, f = ApSub try t \/ f = ApUnsub try t) -> sb_dropped s = false -> sb_call f s = (s', o) ->
  ((exists rest, t = [x4d; x53; x47] ++ rest) -> s' = s /\ o = [UApi f AReserved]) /\
  ((forall rest, t <> [x4d; x53; x47] ++ rest) -> o <> [UApi f AReserved] /\ (o = [UApi f AOk] -> sb_cmdq s' = sb_cmdq s ++ meaning f)).
Proof.
  intros f t s s' o Hf Hd. unfold sb_call. rewrite Hd.
  assert (SW : starts_with MSG t = true <-> exists rest, t = [x4d; x53; x47] ++ rest).
  { unfold starts_with. destruct (eq_dec (firstn (length MSG) t) MSG) as [E|E].
    - split; [|reflexivity]. intros _. exists (skipn (length MSG) t). rewrite <- (firstn_skipn (length MSG) t) at 1. now rewrite E.
    - split; [discriminate|]. intros [r ->]. exfalso. apply E. reflexivity. }
  assert (Ec : api_command f = if starts_with MSG t then inr AReserved else inl (hd CShutdown (meaning f))) by (destruct Hf as [b [-> | ->]]; reflexivity).
  assert (Em : meaning f = [hd CShutdown (meaning f)]) by (destruct Hf as [b [-> | ->]]; reflexivity).
  rewrite Ec. destruct (starts_with MSG t).
  - intros [= <- <-]. split; [auto|]. intros N. destruct (proj1 SW eq_refl) as [r E]. exfalso. exact (N r E).
  - intros H. split; [intros X; apply SW in X; discriminate|]. intros _. destruct (_ <? _); injection H as <- <-.
    + split; [discriminate|]. intros _. cbn [sb_set_cmdq sb_cmdq]. now rewrite <- Em.
    + split; [destruct (api_try f); discriminate|]. destruct (api_try f); discriminate.
Qed.

(*@example *)
Lemma C44_example_pf :
  calls (snd (sx_run (map YApi [ApSub true [x4d; x53; x47; x21]; ApSub false [x4d; x53]; ApUnsub true [x4d; x53; x47]; ApUnsub true [x20; x4d; x53; x47]]))) = [ApSub false [x4d; x53]; ApUnsub true [x20; x4d; x53; x47]] /\
  sb_call (ApSub true [x4d; x53; x47; x21]) sb_init = (sb_init, [UApi (ApSub true [x4d; x53; x47; x21]) AReserved]).
Proof. evals. Qed.

(*@prop C45 (subscriber) is violated: subscribe() accepts a topic of 65528 bytes; the session panics when it makes the frame for it: the connection is lost. *)
Lemma C45_subscribe_oversized_topic_refuted_pf :
  exists topic, blen topic = 65528 /\
  let r := sx_run (sx_open ++ [YApi (ApSub true topic); YCommand] ++ repeat (YSess 0 (sx_env PnPending)) 3) in
  blen (calls (snd r)) = 3 /\ flat_map (fun x => match x with UCrash c => [c] | _ => [] end) (snd r) = [0].
Proof. exists (repeat x61 (N.to_nat 65528)). split; [vm_compute; reflexivity|]. evals. Qed.

(*@prop C45 (subscriber; what holds): in every history a session crashes only if the application successfully called subscribe or unsubscribe with a topic so long that the control frame's topic ("MSG.SUB." or "MSG.UNSUB." and the topic) has at least 65536 bytes. *)
Lemma C45_subscribe_crash_only_oversized_partial_pf :
  forall token ingress initial D evs s log cid,
  sb_run token ingress initial D sb_init evs = (s, log) -> In (UCrash cid) log ->
  exists try t, (In (ApSub try t) (calls log) /\ 2 ^ 16 <= blen (sub_prefix ++ t)) \/ (In (ApUnsub try t) (calls log) /\ 2 ^ 16 <= blen (unsub_prefix ++ t)).
Proof.
  intros token ingress initial D evs s L k R H. destruct (crash_src token ingress initial D _ _ _ _ R H) as (f & c & Hf & Hm & Hb).
  destruct f as [b t|b t|b [x|]|b [x|]]; cbn in Hm; destruct c as [u|u]; try discriminate; injection Hm as ->; exists b, u; [left|right]; auto.
Qed.

(*@example *)
Lemma C45_subscribe_example_pf :
  let r := sx_run (sx_open ++ [YApi (ApSub true (repeat x61 (N.to_nat 65527))); YCommand] ++ repeat (YSess 0 (sx_env PnPending)) 4) in
  map (fun m => blen (ps_topic m)) (wired 0 (snd r)) = [9; 65535] /\ flat_map (fun x => match x with UCrash c => [c] | _ => [] end) (snd r) = [].
Proof. evals. Qed.

(*@prop C46 (what holds): in every history of spawning and joining, there is at most one task per key; and if no task panicked, spawn starts a task iff none with this key is running. *)
Lemma C46_one_task_per_key_partial_pf :
  forall (K : Type) (E : EqDec K) (l : list jm_op) (k : K),
  let m := jm_run jm_new l in
  NoDup (jm_tasks m) /\ ((forall i, ~ In (JFinish i true) l) -> (snd (jm_spawn k m) = true <-> ~ In k (jm_tasks m))).
Proof.
  intros K E l k m. pose proof (jm_run_JI l jm_new JI_new) as J. fold m in J. split; [apply (ji_nd _ J)|]. intros Np.
  pose proof (jm_run_keys l jm_new (fun k H => match H with end) Np) as Hk. fold m in Hk.
  unfold jm_spawn. destruct (smem k (jm_keys m)) eqn:S; cbn [snd].
  - apply smem_true in S. split; [discriminate|]. intros N. exfalso. apply N, Hk, S.
  - apply smem_false in S. split; [|reflexivity]. intros _ Hi. apply S, (ji_incl _ J), Hi.
Qed.

(*@prop C46 is violated: after a task has panicked, no task with its key can ever be started again, although none is running. *)
Lemma C46_panicked_task_blocks_its_key_refuted_pf :
  forall (K : Type) (E : EqDec K) (k : K) (later : list jm_op),
  let m := jm_run jm_new ([JSpawn k; JFinish 0 true] ++ later) in
  ~ In k (jm_tasks m) /\ snd (jm_spawn k m) = false.
Proof.
  intros K E k later. unfold jm_run. rewrite fold_left_app. fold (jm_run (fold_left jm_act [JSpawn k; JFinish 0 true] jm_new) later).
  assert (X : fold_left jm_act [JSpawn k; JFinish 0 true] jm_new = mkJm [k] []) by reflexivity. rewrite X.
  destruct (jm_run_stuck k later (mkJm [k] []) (or_introl eq_refl) (fun H => H)) as [A B]. split; [exact B|]. unfold jm_spawn. apply smem_true in A. now rewrite A.
Qed.

(*@prop C46 (in the subscriber): in every history at most one connection attempt per address is in progress. *)
Lemma C46_one_attempt_at_a_time_partial_pf :
  forall token ingress initial D evs s log a,
  sb_run token ingress initial D sb_init evs = (s, log) ->
  (attempts_ended a log <= attempts a log <= attempts_ended a log + 1)%nat.
Proof.
  intros token ingress initial D evs s L a R. destruct (run_TI token ingress initial D _ _ _ R) as [J T]. specialize (T a).
  pose proof (proj1 (NoDup_count_occ eq_dec (jm_tasks (sb_tasks s))) (ji_nd _ J) a). lia.
Qed.

(*@prop C46 is violated in the subscriber: a connection task panics (say, in the transport's connect); the driver retries with back-off, but no attempt is ever made again. *)
Lemma C46_no_reconnect_after_panic_refuted_pf :
  let r := sx_run ([YApi (ApConnect true (Some sx_addr)); YCommand; YJoin 0 JPanic []; YEntry sx_addr 0] ++ map (fun n => YEntry sx_addr (N.of_nat n * 100000000)) (seq 1 40)) in
  attempts sx_addr (snd r) = 1%nat /\ attempts_ended sx_addr (snd r) = 1%nat /\ In (UGaveUp sx_addr) (snd r).
Proof. evals. Qed.

(*@example *)
Lemma C46_example_pf :
  let r := sx_run ([YApi (ApConnect true (Some sx_addr)); YCommand; YJoin 0 JFail []; YEntry sx_addr 0] ++ map (fun n => YEntry sx_addr (N.of_nat n * 100000000)) (seq 1 3)) in
  attempts sx_addr (snd r) = 2%nat /\ attempts_ended sx_addr (snd r) = 1%nat /\ jm_tasks (jm_run jm_new [JSpawn 1; JSpawn 2; JSpawn 1; JFinish 0 false; JSpawn 1]) = [2; 1].
Proof. evals. Qed.

(*@prop C47 (what holds): for an endpoint whose IP address is not the unspecified one, disconnect() asks for the removal of exactly the publisher connect() asks for; and in every history, when the driver
    processes this command, it removes the publisher and drops every connection to it that had been opened before. *)
Lemma C47_disconnect_undoes_connect_partial_pf :
  forall a, unspecified a = false ->
  (forall t1 t2, meaning (ApConnect t1 (Some a)) = [CConnect a] /\ meaning (ApDisconnect t2 (Some a)) = [CDisconnect a]) /\
  (forall token ingress initial D evs s q, fst (sb_run token ingress initial D sb_init evs) = s -> sb_cmdq s = CDisconnect a :: q ->
     mem a (sb_pubs (fst (sb_act token ingress initial D s YCommand))) = false) /\
  (forall token ingress initial D evs s before after cid, sb_run token ingress initial D sb_init evs = (s, before ++ UCmd (CDisconnect a) :: after) ->
     In (UOpen cid a) before -> driver_closed cid (before ++ UCmd (CDisconnect a) :: after)).
Proof.
  intros a Ha. split; [|split].
  - intros t1 t2. cbn [meaning]. rewrite dialled_eq, Ha. auto.
  - intros token ingress initial D evs s q _ Eq. cbn [sb_act]. unfold sb_next_command. rewrite Eq. cbn [sb_command sb_set_cmdq sb_pubs]. unfold mem. destruct (mget a (sb_pubs s)) as [st|] eqn:G.
    + destruct (sb_release _ _) as [s1 o1] eqn:Rl. cbn [fst sb_set_stats sb_set_pubs sb_pubs]. now rewrite mget_del_eq.
    + cbn [fst sb_set_cmdq sb_pubs]. now rewrite G.
  - intros token ingress initial D evs s b r k R Ho. exact (disconnect_closes token ingress initial D _ _ _ _ _ _ R Ho).
Qed.

(*@prop C47 is violated for the unspecified address: connect() dials the loopback address instead, while disconnect() looks for the unspecified one; so the publisher stays connected. *)
Lemma C47_unspecified_address_refuted_pf :
  (forall a t1 t2, unspecified a = true -> exists b, b <> a /\ meaning (ApConnect t1 (Some a)) = [CConnect b] /\ meaning (ApDisconnect t2 (Some a)) = [CDisconnect a]) /\
  let any := AV4 0 80 in
  let r := sx_run [YApi (ApConnect true (Some any)); YCommand; YJoin 0 (JConn true []) []; YApi (ApDisconnect true (Some any)); YCommand; YSess 0 (sx_env (sx_msg x00 [x07])); YEntry (AV4 2130706433 80) 10; YTake] in
  calls (snd r) = [ApConnect true (Some any); ApDisconnect true (Some any)] /\ blen (commands (snd r)) = 2 /\ yielded 0 (snd r) = [(AV4 2130706433 80, [x61], [x07])].
Proof.
  split.
  - intros a t1 t2 Ha. exists (dialled a). split; [|auto]. rewrite dialled_eq, Ha. destruct a as [ip p|ip p f sc|p]; cbn in *; try discriminate. intros [= <-]. discriminate.
  - evals.
Qed.

(*@example *)
Lemma C47_example_pf :
  let r := sx_run (sx_open ++ [YApi (ApDisconnect true (Some sx_addr)); YCommand]) in
  unspecified sx_addr = false /\ In (UOpen 0 sx_addr) (snd r) /\ In (UClosed 0 []) (snd r) /\ sb_pubs (fst r) = [].
Proof. evals. Qed.

(*@prop C48 is violated: after the SubSocket has been dropped, an established connection is never closed: whatever happens, unless a disconnect for it was already waiting (or the session crashes), its session does not end and the
    driver does not drop it.  (The driver itself never ends: [sb_poll] has no such result.) *)
Lemma C48_connections_outlive_the_socket_refuted_pf :
  forall token ingress initial D evs1 s1 log1 cid a evs2 s2 log2,
  sb_run token ingress initial D sb_init evs1 = (s1, log1) -> In UDropped log1 -> ~ In (CDisconnect a) (sb_cmdq s1) ->
  In (UOpen cid a) log1 -> ~ session_ended cid log1 -> ~ driver_closed cid log1 ->
  sb_run token ingress initial D s1 evs2 = (s2, log2) -> ~ In (UCrash cid) log2 ->
  ~ session_ended cid log2 /\ ~ driver_closed cid log2.
Proof.
  intros token ingress initial D evs1 s1 L1 k a evs2 s2 L2 R1 Hd Nq Ho Ne Nc R2 Nk.
  apply (gi_drop _ _ _ (run_GI token ingress initial D _ _ _ R1)) in Hd. pose proof (dropped_cmdq token ingress initial D _ _ _ _ Hd R2) as Eq.
  assert (Nd : ~ In (CDisconnect a) (commands L2)) by (intros Hi; apply Nq; rewrite Eq; apply in_or_app; auto).
  destruct (C41_lost_publisher_not_noticed_refuted_pf token ingress initial D _ _ _ _ _ _ _ _ R1 Ho Ne Nc R2 Nd Nk) as (A & B & _). split; [|exact B]. intros [X|X]; auto.
Qed.

(*@prop C48 is violated, concretely: connected, the socket dropped, the driver processes the shutdown command, time passes: the connection is still there, and receives. *)
Lemma C48_drop_example_refuted_pf :
  let r := sx_run (sx_open ++ [YDrop; YCommand; YCommand; YEntry sx_addr 1000000000000; YSess 0 (sx_env PnPending); YSess 0 (sx_env (sx_msg x00 [x01])); YEntry sx_addr 2000000000000]) in
  In (UCmd CShutdown) (snd r) /\ map ps_payload (received_on 0 (snd r)) = [[x01]] /\ mget sx_addr (sb_pubs (fst r)) = Some (PActive 0) /\ sb_cmdq (fst r) = [].
Proof. evals. Qed.

Lemma spoll_end cid : forall es s s' o r, ss_poll cid es s = (s', o, r) -> r <> Some SCont /\ (r = Some SDone \/ r = Some SCrash -> exists x, mget cid (sb_conns s') = Some x /\ sc_alive x = false).
Proof.
  induction es as [|e es IH]; intros s s' o r; cbn [ss_poll]; [intros [= <- <- <-]; split; [discriminate|intros [|]; discriminate]|].
  destruct (sb_session cid e s) as [[s1 o1] b] eqn:E. unfold sb_session in E. destruct (mget cid (sb_conns s)) as [x|]; [|injection E as <- <- <-; intros [= <- <- <-]; split; [discriminate|intros [|]; discriminate]].
  destruct (sc_alive x) eqn:Al; [|injection E as <- <- <-; intros [= <- <- <-]; split; [discriminate|intros [|]; discriminate]].
  destruct (ss_iter cid e x) as [[x' o'] r'] eqn:It. injection E as <- <- <-.
  assert (K : r' = SDone \/ r' = SCrash -> sc_alive x' = false).
  { revert It. unfold ss_iter. cbv zeta. destruct (y_next e) as [m| | |].
    - destruct (ss_incoming _ _ _ _). intros [= <- <- <-] [|]; discriminate.
    - intros [= <- <- <-] [|]; discriminate.
    - destruct (eg_loop _ _ _) as [[[eg o0] p] f]. destruct p; [intros [= <- <- <-] [|]; discriminate|]. destruct (sc_cmds _) as [|c cs]; [destruct (sc_held _); intros [= <- <- <-]; [intros [|]; discriminate|reflexivity]|].
      destruct (cmd_frame _ _); intros [= <- <- <-]; [intros [|]; discriminate|reflexivity].
    - destruct (eg_loop _ _ _) as [[[eg o0] p] f]. destruct p; [intros [= <- <- <-] [|]; discriminate|]. destruct (sc_cmds _) as [|c cs]; [destruct (sc_held _); intros [= <- <- <-]; [intros [|]; discriminate|reflexivity]|].
      destruct (cmd_frame _ _); intros [= <- <- <-]; [intros [|]; discriminate|reflexivity]. }
  destruct r'.
  - destruct (ss_poll cid es _) as [[s2 o2] r2] eqn:P. intros [= <- <- <-]. exact (IH _ _ _ _ P).
  - intros [= <- <- <-]. split; [discriminate|]. intros [|]; discriminate.
  - intros [= <- <- <-]. split; [discriminate|]. intros _. exists x'. cbn [sb_set_conns sb_conns]. rewrite mget_set_eq. auto.
  - intros [= <- <- <-]. split; [discriminate|]. intros _. exists x'. cbn [sb_set_conns sb_conns]. rewrite mget_set_eq. auto.
Qed.

(*@prop C48 (what holds): once the driver has dropped a connection (on disconnect), its session ends in its next poll, and with it the connection - unless the publisher keeps it busy with more and more frames: a poll
    never goes to sleep, and with [k] incoming frames it ends after at most [session_work + k] further turns. *)
Lemma C48_disconnected_session_ends_partial_pf :
  forall token ingress initial D evs s log cid a es s' o r,
  sb_run token ingress initial D sb_init evs = (s, log) -> In (UOpen cid a) log -> driver_closed cid log -> ~ session_ended cid log ->
  ss_poll cid es s = (s', o, r) -> (session_work cid s + length (filter (fun e => incoming (y_next e)) es) < length es)%nat ->
  session_ended cid (log ++ o).
Proof.
  intros token ingress initial D evs s L k a es s' o r R Ho Hc Ne P Len.
  destruct (spoll_run token ingress initial D k _ _ _ _ _ P) as (evs2 & R2 & _).
  assert (R3 : sb_run token ingress initial D sb_init (evs ++ evs2) = (s', L ++ o)) by (rewrite (run_app token ingress initial D), R, R2; reflexivity).
  destruct (open_state token ingress initial D _ _ _ _ _ R Ho) as (x & Gx & Ax & Hal & _).
  assert (Al : sc_alive x = true) by (destruct (sc_alive x); [reflexivity|exfalso; apply Ne, Hal; reflexivity]).
  assert (Ho3 : In (UOpen k a) (L ++ o)) by (apply in_or_app; auto).
  destruct (open_state token ingress initial D _ _ _ _ _ R3 Ho3) as (x3 & Gx3 & _ & Hal3 & Hc3 & _).
  assert (Hh3 : sc_held x3 = false). { apply Hc3. destruct Hc as [l Hl]. exists l. apply in_or_app. auto. }
  destruct (spoll_end _ _ _ _ _ _ P) as [Nco Hend]. apply Hal3.
  destruct r as [[| | |]|].
  - congruence.
  - exfalso. destruct (spoll_sleep _ _ _ _ _ P) as (? & ? & ? & y & _ & Gy & _ & _ & Hy & _). congruence.
  - destruct Hend as (y & Gy & Hy); [auto|]. congruence.
  - destruct Hend as (y & Gy & Hy); [auto|]. congruence.
  - exfalso. assert (A : match mget k (sb_conns s) with Some x => sc_alive x | None => false end = true) by (rewrite Gx; exact Al). pose proof (spoll_bound k es s s' o A P). lia.
Qed.

(*@example *)
Lemma C48_example_pf :
  let r := sx_run (sx_open ++ [YApi (ApDisconnect true (Some sx_addr)); YCommand; YSess 0 (sx_env (sx_msg x00 [x01]))] ++ repeat (YSess 0 (sx_env PnPending)) 3) in
  In (UEnd 0) (snd r).
Proof. evals. Qed.

(*@prop C57 (subscriber session): one poll of a running session returns: a poll that is still looping has used at most one turn per frame received and a bounded number of further ones. *)
Lemma C57_subscriber_session_poll_terminates_pf :
  forall token ingress initial D evs s log cid a es s' o,
  sb_run token ingress initial D sb_init evs = (s, log) -> In (UOpen cid a) log -> ~ session_ended cid log -> ss_poll cid es s = (s', o, None) ->
  (length es <= session_work cid s + length (filter (fun e => incoming (y_next e)) es))%nat.
Proof.
  intros token ingress initial D evs s L k a es s' o R Ho Ne P. destruct (open_state token ingress initial D _ _ _ _ _ R Ho) as (x & Gx & _ & Hal & _).
  apply (spoll_bound k es s s' o); [|exact P]. rewrite Gx. destruct (sc_alive x); [reflexivity|exfalso; apply Ne, Hal; reflexivity].
Qed.

(*@prop C57 (subscriber driver): one poll of the driver returns after at most [driver_work] turns, which depends only on the state it starts in, whatever the environment answers. *)
Lemma C57_subscriber_driver_poll_terminates_pf :
  forall token ingress initial D evs s log ds s' o,
  sb_run token ingress initial D sb_init evs = (s, log) -> sb_poll token ingress initial D ds s = (s', o, false) -> (length ds <= driver_work s)%nat.
Proof. intros token ingress initial D evs s L ds s' o R P. exact (poll_bound token ingress initial D ds s s' o (run_SI _ _ _ _ _ _ _ R) P). Qed.

(*@example *)
Lemma C57_subscriber_example_pf :
  let s := fst (sx_run (sx_open ++ [YSess 0 (sx_env (sx_msg x00 [x01])); YApi (ApSub true [x62])])) in
  driver_work s = 35%nat /\ session_work 0 s = 2%nat /\
  snd (sb_poll None 4 1000 sx_D (repeat (mkYd 10 [] None) 2) s) = false /\ snd (sb_poll None 4 1000 sx_D (repeat (mkYd 10 [] None) 3) s) = true /\
  snd (ss_poll 0 (repeat (sx_env PnPending) 2) s) = None /\ snd (ss_poll 0 (repeat (sx_env PnPending) 3) s) = Some SPend.
Proof. evals. Qed.

(*@prop C64 (subscriber session): a session goes to sleep only after a turn in which its connection had no frame (or was at its end), no command was waiting, and there was nothing to write or the connection
    was not ready for it. *)
Lemma C64_subscriber_session_sleeps_only_when_idle_partial_pf :
  forall cid es s s' o, ss_poll cid es s = (s', o, Some SPend) ->
  exists before e rest x, es = before ++ e :: rest /\ mget cid (sb_conns s') = Some x /\
    (y_next e = PnPending \/ y_next e = PnEof) /\ sc_cmds x = [] /\ (sc_egress x = [] \/ y_sends e = [] \/ hd_error (y_sends e) = Some SaBusy).
Proof.
  intros cid es s s' o P. destruct (spoll_sleep _ _ _ _ _ P) as (b & e & r & x & E & G & Hn & Hc & _ & He). exists b, e, r, x. auto.
Qed.

(*@prop C64 (subscriber driver, what holds): the driver goes to sleep only after a pass in which no command was waiting, every message was taken from every connection on which it found no undecodable one, and the connection
    task it looked at, if any, had not finished - or had panicked. *)
Lemma C64_subscriber_driver_sleeps_only_when_idle_partial_pf :
  forall token ingress initial D evs s log ds s' o,
  sb_run token ingress initial D sb_init evs = (s, log) -> sb_poll token ingress initial D ds s = (s', o, true) ->
  sb_cmdq s' = [] /\
  (forall cid x, mget cid (sb_conns s') = Some x -> sc_held x = true -> (forall m, ~ In (UUndecodable cid m) o) -> sc_in x = []) /\
  exists before d rest, ds = before ++ d :: rest /\
    forall k r order, yd_join d = Some (k, r, order) -> nth_error (jm_tasks (sb_tasks s')) k = None \/ (exists a, In (UTaskPanic a) o) \/
      (exists ok i, r = JConn ok i /\ fst (fst (auth_client token ok i)) = ClRunning).
Proof.
  intros token ingress initial D evs s L ds s' o R P. destruct (poll_sleep token ingress initial D _ _ _ _ P) as (b & d & r & E & Q & J). split; [exact Q|]. split; [|eauto].
  intros k x Gx Hh Nu. exact (poll_idle token ingress initial D k ds s s' o (run_SI _ _ _ _ _ _ _ R) P Nu x Gx Hh).
Qed.

(*@prop C64 is violated by the subscriber's driver: when a connection task has panicked, it goes to sleep although another one has finished and is ready to be taken (here connection 1 of 2). *)
Lemma C64_subscriber_driver_sleeps_on_panic_refuted_pf :
  let a1 := AV4 2130706433 81 in let a2 := AV4 2130706433 82 in
  let s := fst (sx_run [YApi (ApConnect true (Some a1)); YApi (ApConnect true (Some a2)); YCommand; YCommand]) in
  exists s' o, sb_poll None 4 1000 sx_D [mkYd 0 [] (Some (0%nat, JPanic, [])); mkYd 0 [] (Some (0%nat, JConn true [], []))] s = (s', o, true) /\
  o = [UTaskPanic a1] /\ jm_tasks (sb_tasks s') = [a2].
Proof. cbv zeta. eexists. eexists. split; [vm_compute; reflexivity|]. evals. Qed.

(*@example *)
Lemma C64_subscriber_example_pf :
  let s := fst (sx_run sx_open) in
  snd (sb_poll None 4 1000 sx_D [mkYd 10 [] None] s) = true /\ snd (ss_poll 0 (repeat (sx_env PnPending) 3) s) = Some SPend.
Proof. evals. Qed.

(*@prop C65 (what holds): in every history, for an address with an established connection that was not disconnected since, the statistics are those of the last connection to it: bytes_rx is the number of payload bytes of the frames received on it, and the latency the
    moving average of the measured latencies; and an address that never had a connection has no entry. *)
Lemma C65_statistics_of_the_connection_partial_pf :
  forall token ingress initial D evs s log a,
  sb_run token ingress initial D sb_init evs = (s, log) ->
  (forall before cid after, log = before ++ UOpen cid a :: after -> (forall c, ~ In (UOpen c a) after) -> ~ In (CDisconnect a) (commands after) ->
     sb_bytes_rx a s = Some (sum_len (map ps_payload (received_on cid log))) /\
     sb_latency a s = Some (av_value (latency_after (latencies cid log)))) /\
  ((forall c, ~ In (UOpen c a) log) -> sb_bytes_rx a s = None /\ sb_latency a s = None).
Proof.
  intros token ingress initial D evs s L a R. destruct (run_STI token ingress initial D _ _ _ R) as [S1 S2]. split.
  - intros b k r E Nl Nd. pose proof (S2 _ _ _ _ E Nd) as Hs. destruct (mget a (sb_stats s)) as [c|] eqn:G; [|congruence]. destruct (S1 _ _ G) as (b' & r' & E' & Nl').
    assert (c = k).
    { rewrite E in E'. destruct (PubDriverP2.split_app_list _ _ _ _ _ E') as [(z & E1 & E2)|(b2 & z & E1 & _ & _)].
      - exfalso. apply (Nl' k). rewrite E1. apply in_or_app. right. now left.
      - destruct b2 as [|y b2]; cbn in E1; [congruence|]. exfalso. apply (Nl c). injection E1 as _ E1. rewrite E1. apply in_or_app. right. now left. }
    subst c. assert (Ho : In (UOpen k a) L) by (rewrite E; apply in_or_app; right; now left). destruct (open_state token ingress initial D _ _ _ _ _ R Ho) as (x & Gx & _).
    pose proof (ci_stat _ _ _ _ (run_connI token ingress initial D k _ _ _ R)) as I. unfold statI in I. rewrite Gx, received_on_on, latencies_on in I. destruct I as [I1 I2].
    unfold sb_bytes_rx, sb_latency. rewrite G, Gx, I1, I2. auto.
  - intros N. unfold sb_bytes_rx, sb_latency. destruct (mget a (sb_stats s)) as [c|] eqn:G; [|auto]. destruct (S1 _ _ G) as (b & r & -> & _). exfalso. apply (N c), in_or_app. right. now left.
Qed.

(*@prop C65 is violated: when the driver gives up reconnecting to a publisher, its statistics stay; disconnect() does not remove them either. *)
Lemma C65_stale_statistics_refuted_pf :
  let r := sx_run (sx_open ++ [YSess 0 (sx_env (sx_msg x00 [x01; x02])); YEntry sx_addr 5; YApi (ApSub true (repeat x61 (N.to_nat (2 ^ 16)))); YCommand] ++ repeat (YSess 0 (sx_env PnPending)) 3 ++
                   [YEntry sx_addr 10; YEntry sx_addr 10] ++ flat_map (fun n => [YEntry sx_addr (10000 * 2 ^ N.of_nat n); YJoin 0 JFail []]) (seq 1 17) ++ [YApi (ApDisconnect true (Some sx_addr)); YCommand]) in
  flat_map (fun x => match x with UGaveUp a => [a] | _ => [] end) (snd r) = [sx_addr] /\ sb_pubs (fst r) = [] /\ sb_cmdq (fst r) = [] /\ sb_bytes_rx sx_addr (fst r) = Some 2.
Proof. evals. Qed.

(*@example *)
Lemma C65_example_pf :
  let r := sx_run (sx_open ++ [YSess 0 (sx_env (sx_msg x00 [x01; x02])); YSess 0 (mkYenv true (sx_msg x00 [x03]) [] 9)]) in
  sb_bytes_rx sx_addr (fst r) = Some 3 /\ latencies 0 (snd r) = [2; 6] /\ sb_latency sx_addr (fst r) = Some 4 /\ sb_bytes_rx (AV4 0 80) (fst r) = None.
Proof. evals. Qed.
