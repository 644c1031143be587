(** Request socket: C10 .. C16, C18, C21 (request side), C57 (request driver). *)
From Coq Require Import List NArith Permutation.
From Verif Require Import Model.Base Model.WireReqRep Model.Compression Model.Backoff Model.Map Model.ReqDriver Spec.ReqSpec.
Import ListNotations.
Open Scope N_scope.
(*HEADEND*)
From Coq Require Import ZArith ZifyBool ZifyNat ZifyN Permutation.
From Verif Require Import Model.Map Proofs.MapP Proofs.BaseP Proofs.ReqRepP Proofs.ReqDriverP.
Local Open Scope N_scope.

(*@prop C10: in every history, if a call's result is Ok(x), then before that moment the call's frame was accepted under
    some id, no other call was given the same id afterwards, and the connection produced a response frame with exactly
    that id whose decompressed payload is x. *)
Lemma C10_response_matches_request_pf :
  forall o co D evs s log c x before after,
  rd_run o co D rd_init evs = (s, log) -> log = before ++ Resolve c (OOk x) :: after ->
  exists response t req log1 log2,
    response_seen evs response /\ try_decompress D (rr_ctype response) (rr_payload response) = Some x /\
    before = log1 ++ Accept t c req :: log2 /\ rr_id req = rr_id response /\
    (forall t' c' req', In (Accept t' c' req') log2 -> rr_id req' <> rr_id req).
Proof.
  intros o co D evs s L c x pre post R E.
  destruct (run_ok_source o co D evs s L R c x pre post E) as (m & t & Hs & (L1 & m' & L2 & -> & Hid & Hl) & T).
  exists m, t, m', L1, L2. rewrite Hid. auto 6.
Qed.

(*@example *)
Lemma C10_example_pf :
  forall D, snd (rd_run ex_opts None D rd_init (ex_hist ++ [EIter (ex_resp 1 [x42]); EIter (ex_resp 0 [x41])])) =
    [StartConnect; Connected; CheckedTimeouts (21 * ms);
     Accept (21 * ms) 7 (rr_new 0 x00 [x68; x69]); Handed (rr_new 0 x00 [x68; x69]) true; CheckedTimeouts (22 * ms);
     Accept (22 * ms) 8 (rr_new 1 x00 [x79; x6f]); Handed (rr_new 1 x00 [x79; x6f]) true;
     Resolve 8 (OOk [x42]); Resolve 7 (OOk [x41])].
Proof. intros D. reflexivity. Qed.

Lemma NoDup_perm_app {A} (l a b : list A) : Permutation l (a ++ b) -> NoDup l -> NoDup a /\ (forall x, In x a -> ~ In x b).
Proof.
  intros P N. apply (Permutation_NoDup P) in N. clear P. induction a as [|x a IH]; cbn in *.
  - split; [constructor|intros x []].
  - inversion N; subst. destruct (IH H2) as [I1 I2]. split.
    + constructor; [|exact I1]. intros X. apply H1, in_or_app. left; exact X.
    + intros y [->|Hy]; [|apply I2, Hy]. intros X. apply H1, in_or_app. right; exact X.
Qed.

(*@prop C11: in every history no request() call gets more than one result, and only calls that were made get one. *)
Lemma C11_at_most_one_result_pf :
  forall o co D evs s log,
  rd_run o co D rd_init evs = (s, log) -> NoDup (map fst (issued evs)) ->
  NoDup (resolved log) /\ (forall c, In c (resolved log) -> In c (map fst (issued evs))).
Proof.
  intros o co D evs s L R N. destruct (run_acct o co D evs s L R) as (P & _ & _).
  destruct (NoDup_perm_app _ _ _ P N) as [N1 _]. split; [exact N1|].
  intros c Hc. apply (Permutation_in (l := resolved L ++ calls s)); [symmetry; exact P|]. apply in_or_app. left; exact Hc.
Qed.

Lemma pending_call (s : rd) id t c : mget id (rd_pending s) = Some (t, c) -> In c (calls s).
Proof. intros G. apply in_or_app. right. apply mget_in in G. apply (in_map (fun p => snd (snd p))) in G. exact G. Qed.

Lemma pending_unresolved o co D evs s L id t c : rd_run o co D rd_init evs = (s, L) -> NoDup (map fst (issued evs)) ->
  mget id (rd_pending s) = Some (t, c) -> unresolved L c.
Proof.
  intros R N G. destruct (run_acct o co D evs s L R) as (P & _ & _). destruct (NoDup_perm_app _ _ _ P N) as [_ X].
  eapply (proj2 (unresolved_iff c L)). intros Hr. apply (X c Hr). eapply pending_call; eauto.
Qed.

(*@prop C11: a response frame whose id belongs to no call that still waits for its result (unknown id, duplicate, late)
    changes nothing: no result, no frame, no statistics, same queues. *)
Lemma C11_stray_response_ignored_pf :
  forall o co D evs s log m now,
  rd_run o co D rd_init evs = (s, log) -> NoDup (map fst (issued evs)) ->
  (forall t c req, In (Accept t c req) log -> rr_id req = rr_id m -> ~ unresolved log c) ->
  rd_on_message D now s m = (s, []).
Proof.
  intros o co D evs s L m now R N H. unfold rd_on_message.
  destruct (mget (rr_id m) (rd_pending s)) as [[t c]|] eqn:G; [|reflexivity]. exfalso.
  destruct (run_pend o co D evs s L R) as [S C]. destruct (S _ _ _ G) as (L1 & req & L2 & EL & Hid & Hlast).
  apply (H t c req); [rewrite EL; apply in_or_app; right; left; reflexivity|exact Hid|].
  eapply pending_unresolved; eauto.
Qed.

(*@example *)
Lemma C11_example_pf :
  forall D, NoDup (map fst (issued ex_hist)) /\
  (* the response to call 7 arrives twice, then one with an unknown id *)
  resolved (snd (rd_run ex_opts None D rd_init
     (ex_hist ++ [EIter (ex_resp 0 [x41]); EIter (ex_resp 0 [x42]); EIter (ex_resp 99 [])]))) = [7].
Proof. intros D. split; [|reflexivity]. cbn. constructor; [intros [X|[]]; discriminate X|constructor; [intros []|constructor]]. Qed.

(*@prop C12: when the timeout check runs at time [now] after any history, exactly the calls that were accepted more than
    `timeout` before [now] and have no result yet get one, namely Timeout; and of the calls waiting for a response exactly
    those are forgotten, everything else in the driver staying as it is. *)
Lemma C12_timeout_check_exact_pf :
  forall o co D evs s log now s' new,
  rd_run o co D rd_init evs = (s, log) -> NoDup (map fst (issued evs)) ->
  rd_check_timeouts o now s = (s', new) ->
  (forall c r, In (Resolve c r) new <->
     r = OTimeout /\ exists t, outstanding log t c /\ ro_timeout o < now - t) /\
  (forall id, mget id (rd_pending s') =
     match mget id (rd_pending s) with
     | Some (t, c) => if ro_timeout o <? now - t then None else Some (t, c)
     | None => None
     end) /\
  rd_egress s' = rd_egress s /\ rd_cmds s' = rd_cmds s /\ rd_conn s' = rd_conn s /\ rd_id s' = rd_id s /\
  rd_tx s' = rd_tx s /\ rd_rx s' = rd_rx s /\ rd_rtts s' = rd_rtts s /\ rd_done s' = rd_done s.
Proof.
  intros o co D evs s L now s' new R N E. unfold rd_check_timeouts in E.
  destruct (run_acct o co D evs s L R) as (P & K & _). destruct (run_pend o co D evs s L R) as [S C].
  pose proof (timed_out_pend (timed_out_ids o now (rd_pending s)) (rd_pending s)) as X.
  destruct (remove_timed_out _ _) as [p' os]. inversion E; subst s' new. clear E. cbn [fst snd] in X. destruct X as (X1 & X2 & X3).
  cbn [rd_pending rd_egress rd_cmds rd_conn rd_id rd_tx rd_rx rd_rtts rd_done]. split; [|split; [|repeat split]].
  - intros c r. split.
    + intros [Hx|Hx]; [discriminate|]. apply X3 in Hx. destruct Hx as (-> & id & t & Hi & G). split; [reflexivity|].
      apply (in_timed_out o now _ id K) in Hi. destruct Hi as (t1 & c1 & G1 & Ht). rewrite G in G1. inversion G1; subst t1 c1.
      exists t. split; [|exact Ht]. split; [|eapply pending_unresolved; eauto].
      destruct (S _ _ _ G) as (L1 & req & L2 & EL & _). exists req. rewrite EL. apply in_or_app. right. left. reflexivity.
    + intros (-> & t & ((m & Hm) & Hu) & Ht). right. apply X3. split; [reflexivity|]. specialize (C t c m Hm Hu).
      exists (rr_id m), t. split; [|exact C]. apply in_timed_out; [exact K|]. exists t, c. auto.
  - intros id. rewrite X2. destruct (in_dec N.eq_dec id _) as [Hi|Hi].
    + apply in_timed_out in Hi; [|exact K]. destruct Hi as (t & c & G & Ht). rewrite G. rewrite (proj2 (N.ltb_lt _ _)) by exact Ht. reflexivity.
    + destruct (mget id (rd_pending s)) as [[t c]|] eqn:G; [|reflexivity].
      destruct (N.ltb_spec (ro_timeout o) (now - t)) as [Ht|]; [|reflexivity].
      exfalso. apply Hi. apply in_timed_out; [exact K|]. eauto.
Qed.

(*@example *)
Lemma C12_example_pf :
  forall D, exists s log, rd_run ex_opts None D rd_init ex_hist = (s, log) /\ outstanding log (21 * ms) 7 /\ outstanding log (22 * ms) 8 /\
    snd (rd_check_timeouts ex_opts (5021 * ms) s) = [CheckedTimeouts (5021 * ms)] /\
    snd (rd_check_timeouts ex_opts (5021 * ms + 1) s) = [CheckedTimeouts (5021 * ms + 1); Resolve 7 OTimeout].
Proof.
  intros D. eexists _, _. split; [vm_compute; reflexivity|].
  split; [split; [eexists; cbn; do 3 right; left; reflexivity|intros r H; cbn in H; repeat destruct H as [H|H]; try discriminate H; try destruct H]|].
  split; [split; [eexists; cbn; do 6 right; left; reflexivity|intros r H; cbn in H; repeat destruct H as [H|H]; try discriminate H; try destruct H]|].
  split; reflexivity.
Qed.

(*@prop C13, what holds: while a connection is active, nothing arrives and nothing can be sent, an iteration in which the
    check interval fires gives Timeout to every call that is past its deadline. *)
Lemma C13_timeout_while_connected_partial_pf :
  forall o co D evs s log e t c s' new ctl,
  rd_run o co D rd_init evs = (s, log) ->
  rd_done s = false -> rd_conn s = RActive -> rd_task s = false ->
  e_next e = NxPending -> (e_ready e = false \/ rd_egress s = []) -> (0 < e_ticks e)%nat ->
  outstanding log t c -> ro_timeout o < e_now e - t ->
  rd_iter o co D e s = (s', new, ctl) ->
  In (Resolve c OTimeout) new.
Proof.
  intros o co D evs s L e t c s' new ctl R Hd Hc Ht Hn Hr Hk ((m & Hm) & Hu) Hto E.
  destruct (run_acct o co D evs s L R) as (P & K & _). destruct (run_pend o co D evs s L R) as [S C].
  specialize (C t c m Hm Hu).
  unfold rd_iter in E.
  assert (F : forall s1, s1 = rd_do_flush o e s -> rd_conn s1 = RActive /\ rd_task s1 = false /\ rd_pending s1 = rd_pending s /\ rd_egress s1 = rd_egress s).
  { intros s1 ->. unfold rd_do_flush. destruct (rd_flush s); [|auto].
    destruct (match ro_flush_interval o with Some _ => e_flush_tick e | None => true end); [|auto].
    rewrite Hc. destruct (e_flush_ok e); auto. }
  destruct (F _ eq_refl) as (F1 & F2 & F3 & F4). unfold rd_do_task in E. rewrite F2 in E. rewrite F1 in E. cbn [app] in E.
  unfold rd_do_active in E. rewrite Hn in E.
  assert (Q : (if e_ready e then rd_egress (rd_do_flush o e s) else []) = []).
  { rewrite F4. destruct Hr as [-> | ->]; [reflexivity|destruct (e_ready e); reflexivity]. }
  rewrite Q in E. destruct (e_ticks e) as [|k]; [lia|]. cbn [rd_ticks] in E.
  assert (X : In (Resolve c OTimeout) (snd (rd_check_timeouts o (e_now e) (rd_do_flush o e s)))).
  { unfold rd_check_timeouts. rewrite F3.
    pose proof (timed_out_pend (timed_out_ids o (e_now e) (rd_pending s)) (rd_pending s)) as X.
    destruct (remove_timed_out _ _) as [p' os]. cbn [fst snd] in *. destruct X as (_ & _ & X3). right. apply X3. split; [reflexivity|].
    exists (rr_id m), t. split; [|exact C]. apply in_timed_out; [exact K|]. eauto. }
  destruct (rd_check_timeouts o (e_now e) (rd_do_flush o e s)) as [s1 o1]. destruct (rd_ticks o k (e_now e) s1) as [s2 o2].
  destruct (rd_do_command o co e s2) as [[s3 o3] c3]. inversion E; subst. cbn [snd] in X.
  apply in_or_app. left. apply in_or_app. left. exact X.
Qed.

(*@example *)
Lemma C13_example_pf :
  forall D, exists s log, rd_run ex_opts None D rd_init ex_hist = (s, log) /\ rd_done s = false /\ rd_conn s = RActive /\
    rd_task s = false /\ rd_egress s = [] /\ outstanding log (21 * ms) 7 /\ ro_timeout ex_opts < e_now (ex_env (6000 * ms)) - 21 * ms.
Proof.
  intros D. eexists _, _. split; [vm_compute; reflexivity|]. repeat (split; [reflexivity|]).
  split; [|reflexivity]. split; [eexists; cbn; do 3 right; left; reflexivity|intros r H; cbn in H; repeat destruct H as [H|H]; try discriminate H; try destruct H].
Qed.

(*@prop C13 is violated while reconnecting: with a 5 s timeout, a request accepted at 21 ms still has no result at 600 s,
    although the driver was polled whenever one of its timers fired (the check interval being ready every time): the
    inactive branch returns before it looks at timeouts.  So it is for a request issued while disconnected. *)
Lemma C13_no_timeout_while_reconnecting_refuted_pf :
  forall D, exists evs s log,
    rd_run ex_opts None D rd_init evs = (s, log) /\
    last evs EDrop = EIter (ex_env (600000 * ms)) /\
    outstanding log (21 * ms) 7 /\                                       (* accepted at 21 ms, no result *)
    In (EReq 9 []) evs /\ unresolved log 9 /\                            (* issued later, no result *)
    rd_done s = false /\ ro_timeout ex_opts = 5000 * ms.
Proof.
  intros D.
  exists (ex_hist ++ [EIter (ex_in (31 * ms) NxErr); EReq 9 []] ++
     map (fun k => EIter (ex_conn (31 * ms + 20 * ms * (2 ^ N.of_nat k - 1)) false)) (seq 0 15) ++
     [EIter (ex_env (600000 * ms))]).
  eexists _, _. split; [vm_compute; reflexivity|]. split; [reflexivity|].
  split.
  { split; [eexists; do 3 right; left; reflexivity|]. intros r H. repeat destruct H as [H|H]; try discriminate H; try destruct H. }
  split; [apply in_or_app; right; apply in_or_app; left; right; left; reflexivity|].
  split; [intros r H; repeat destruct H as [H|H]; try discriminate H; try destruct H|].
  split; reflexivity.
Qed.

(*@prop C13 is violated under load as well: as long as each iteration finds an inbound message, the `continue` skips the
    timeout check, so after any number of iterations, at any time, an overdue call has no result. *)
Lemma C13_timeouts_starved_by_traffic_refuted_pf :
  forall D (n : nat) (now : N), exists evs s log,
    evs = ex_hist ++ repeat (EIter (ex_in now (NxMsg (rr_new 99 x00 [])))) n /\
    rd_run ex_opts None D rd_init evs = (s, log) /\ outstanding log (21 * ms) 7.
Proof.
  intros D n now. eexists _. 
  destruct (rd_run ex_opts None D rd_init ex_hist) as [s0 L0] eqn:R0.
  assert (X : forall n, rd_run ex_opts None D s0 (repeat (EIter (ex_in now (NxMsg (rr_new 99 x00 [])))) n) =
     (match n with O => s0 | S _ => set_flush s0 false end, [])).
  { pose proof R0 as R1. vm_compute in R1. inversion R1; subst s0. clear. induction n as [|n IH]; [reflexivity|].
    cbn [repeat rd_run]. cbn [rd_step rd_done]. unfold rd_iter, rd_do_flush. cbn -[repeat rd_run N.mul].
    match goal with |- (let (_, _) := rd_run _ _ _ ?s _ in _) = _ => set (sx := s) end.
    assert (Y : forall k, rd_run ex_opts None D sx (repeat (EIter (ex_in now (NxMsg (rr_new 99 x00 [])))) k) = (sx, [])).
    { clear. intros k. induction k as [|k IH]; [reflexivity|]. cbn [repeat rd_run]. 
      replace (rd_step ex_opts None D sx (EIter (ex_in now (NxMsg (rr_new 99 x00 []))))) with (sx, @nil out) by reflexivity.
      rewrite IH. reflexivity. }
    rewrite Y. reflexivity. }
  eexists _, _. split; [reflexivity|]. split; [rewrite run_app, R0, X; reflexivity|]. rewrite app_nil_r.
  vm_compute in R0. inversion R0; subst.
  split; [eexists; do 3 right; left; reflexivity|]. intros r H. repeat destruct H as [H|H]; try discriminate H; try destruct H.
Qed.

(** Frame number i of the accepted calls. *)
Lemma frames_nth o co ps : forall i k, nth_error (frames_from o co i ps) k =
  option_map (fun p => frame_of o co (i + N.of_nat k) p) (nth_error ps k).
Proof.
  induction ps as [|p ps IH]; intros i [|k]; cbn [frames_from nth_error option_map]; try reflexivity.
  - rewrite N.add_0_r. reflexivity.
  - rewrite IH. destruct (nth_error ps k); [cbn|reflexivity]. do 2 f_equal. lia.
Qed.

(*@prop C14: in every history the calls are accepted in the order in which they were made, each at most once (the accepted
    calls are the first ones made; while the socket is alive the others are all still queued); the k-th accepted frame
    carries id k mod 2^32 and the k-th call's payload; and the frames handed to connections, followed by those still
    waiting, are exactly the accepted ones in order - across any number of reconnections. *)
Lemma C14_requests_sent_in_order_pf :
  forall o co D evs s log,
  rd_run o co D rd_init evs = (s, log) ->
  (exists acc rest,
     issued evs = acc ++ rd_cmds s ++ rest /\ (rd_done s = false -> rd_dropped s = false -> rest = []) /\
     map fst (accepted log) = map fst acc /\
     (forall k m, nth_error (map snd (accepted log)) k = Some m ->
        exists c p, nth_error acc k = Some (c, p) /\
                    m = req_into_wire (N.of_nat k mod 2 ^ 32) (req_outgoing (ro_min_compress o) co p))) /\
  handed log ++ rd_egress s = map snd (accepted log).
Proof.
  intros o co D evs s L R. destruct (run_order o co D evs s L R) as (acc & rest & E & (O1 & O2 & O3 & O4) & Hr).
  split; [|exact O3]. exists acc, rest. split; [exact E|]. split; [exact Hr|]. split; [exact O1|].
  intros k m Hm. rewrite O2, frames_nth, nth_error_map in Hm. destruct (nth_error acc k) as [[c p]|]; [|discriminate].
  cbn in Hm. inversion Hm; subst. exists c, p. auto.
Qed.

(*@prop C14: a connection failure loses nothing that waits in the queue: neither waiting frames nor queued calls. *)
Lemma C14_reset_keeps_queues_pf :
  forall o co D e s s' new ctl,
  rd_conn s = RActive -> rd_task s = false -> e_next e = NxErr ->
  rd_iter o co D e s = (s', new, ctl) ->
  rd_egress s' = rd_egress s /\ rd_cmds s' = rd_cmds s /\ rd_pending s' = rd_pending s /\ new = [].
Proof.
  intros o co D e s s' new ctl Hc Ht Hn E. unfold rd_iter in E.
  assert (F : rd_conn (rd_do_flush o e s) = RActive /\ rd_task (rd_do_flush o e s) = false /\ rd_pending (rd_do_flush o e s) = rd_pending s
     /\ rd_egress (rd_do_flush o e s) = rd_egress s /\ rd_cmds (rd_do_flush o e s) = rd_cmds s).
  { unfold rd_do_flush. destruct (rd_flush s); [|auto 6]. destruct (match ro_flush_interval o with Some _ => e_flush_tick e | None => true end); [|auto 6].
    rewrite Hc. destruct (e_flush_ok e); auto 6. }
  destruct F as (F1 & F2 & F3 & F4 & F5). unfold rd_do_task in E. rewrite F2, F1 in E. unfold rd_do_active in E. rewrite Hn in E.
  inversion E; subst. cbn. auto.
Qed.

(*@example *)
Lemma C14_example_pf :
  forall D, let r := rd_run ex_opts None D rd_init (ex_hist ++ [EIter (ex_in (31 * ms) NxErr); EReq 9 [x7a]]) in
  map rr_id (handed (snd r)) = [0; 1] /\ map fst (accepted (snd r)) = [7; 8] /\ rd_cmds (fst r) = [(9, [x7a])].
Proof. intros D. repeat split. Qed.

(** * Connection management *)
Definition conn_inv (s : rd) : Prop := rd_conn s = RActive -> rd_done s = false -> rd_task s = false.

Lemma conn_step o co D s ev s' os : conn_inv s -> rd_step o co D s ev = (s', os) -> conn_inv s'.
Proof.
  intros I. destruct ev as [c p| |e]; cbn [rd_step].
  - destruct (rd_done s || rd_dropped s); intros H; inversion H; subst; exact I.
  - intros H; inversion H; subst; exact I.
  - destruct (rd_done s) eqn:Dn; [intros H; inversion H; subst; exact I|].
    destruct (rd_iter o co D e s) as [[sx ox] c] eqn:E. intros H; inversion H; subst. clear H.
    unfold rd_iter in E.
    assert (I1 : conn_inv (rd_do_flush o e s) /\ rd_done (rd_do_flush o e s) = false).
    { unfold rd_do_flush. destruct (rd_flush s); [|auto]. destruct (match ro_flush_interval o with Some _ => e_flush_tick e | None => true end); [|auto].
      destruct (rd_conn s) eqn:Cn; [|auto]. destruct (e_flush_ok e); [|auto]. split; [|exact Dn]. exact I. }
    destruct I1 as [I1 D1].
    destruct (rd_do_task e (rd_do_flush o e s)) as [s2 o2] eqn:T.
    assert (I2 : conn_inv s2).
    { unfold rd_do_task in T. destruct (rd_task (rd_do_flush o e s)) eqn:Tk; [|inversion T; subst; exact I1].
      destruct (e_task e) as [[|]|]; inversion T; subst; unfold conn_inv in *; cbn; auto. }
    assert (Hfin : forall s3, conn_inv (fst (rd_finish s3))) by (intros s3 _ X; discriminate X).
    destruct (rd_conn s2) as [|b] eqn:Cn.
    + destruct (rd_done s2) eqn:D2.
      { exfalso. unfold rd_do_task in T. destruct (rd_task (rd_do_flush o e s)); [destruct (e_task e) as [[|]|]|]; inversion T; subst; cbn in D2; congruence. }
      assert (T2 : rd_task s2 = false) by (apply I2; assumption).
      destruct (rd_do_active o co D e s2) as [[s3 o3] c3] eqn:A. inversion E; subst. clear E. unfold rd_do_active in A.
      destruct (e_next e) as [m| | |].
      * unfold rd_on_message in A. destruct (mget (rr_id m) (rd_pending s2)) as [[? ?]|]; [destruct (try_decompress D (rr_ctype m) (rr_payload m))|]; inversion A; subst; intros _ _; assumption.
      * inversion A; subst. intros X. discriminate X.
      * pose proof (Hfin s2) as F. destruct (rd_finish s2). inversion A; subst. exact F.
      * destruct (if e_ready e then rd_egress s2 else []) as [|m q].
        -- assert (Tt : forall n s, rd_task s = false -> rd_task (fst (rd_ticks o n (e_now e) s)) = false).
           { clear. induction n as [|n IH]; intros s Hs; [exact Hs|]. cbn [rd_ticks]. unfold rd_check_timeouts at 1. destruct (remove_timed_out _ _) as [p' os'].
             match goal with |- context [rd_ticks o n (e_now e) ?x] => specialize (IH x Hs); destruct (rd_ticks o n (e_now e) x) end. exact IH. }
           specialize (Tt (e_ticks e) s2 T2). destruct (rd_ticks o (e_ticks e) (e_now e) s2) as [s4 o4]. cbn [fst] in Tt.
           unfold rd_do_command in A. destruct (e_recv e); [|inversion A; subst; intros _ _; exact Tt].
           destruct (rd_cmds s4) as [|[? ?] ?].
           ++ destruct (rd_dropped s4); [|inversion A; subst; intros _ _; exact Tt]. destruct (e_close e); [|inversion A; subst; intros _ _; exact Tt].
              pose proof (Hfin s4) as F. destruct (rd_finish s4). inversion A; subst. exact F.
           ++ cbn in A. inversion A; subst. intros _ _. exact Tt.
        -- destruct (e_send e); inversion A; subst; intros X _; [exact T2|discriminate X].
    + destruct (rd_do_inactive e b s2) as [[s3 o3] c3] eqn:A. inversion E; subst. clear E. unfold rd_do_inactive in A.
      destruct (bo_poll (e_now e) b) as [b' [d| | |]].
      * destruct (rd_task s2); inversion A; subst; intros X; discriminate X.
      * cbn in A. inversion A; subst. intros X; discriminate X.
      * inversion A; subst. intros X; discriminate X.
      * cbn in A. inversion A; subst. intros _ X. discriminate X.
Qed.

Lemma run_conn o co D evs : forall s s' L, conn_inv s -> rd_run o co D s evs = (s', L) -> conn_inv s'.
Proof.
  induction evs as [|ev evs IH]; intros s s' L I H; cbn [rd_run] in H; [inversion H; subst; exact I|].
  destruct (rd_step o co D s ev) as [s1 o1] eqn:St. destruct (rd_run o co D s1 evs) as [s2 o2] eqn:R. inversion H; subst.
  eapply IH; [|exact R]. eapply conn_step; eauto.
Qed.

Lemma reachable_active_task o co D evs s L : rd_run o co D rd_init evs = (s, L) -> rd_conn s = RActive -> rd_done s = false -> rd_task s = false.
Proof. intros R. eapply (run_conn o co D evs rd_init); [|exact R]. intros X; discriminate X. Qed.

Lemma flush_same o e s : let s1 := rd_do_flush o e s in
  rd_conn s1 = rd_conn s /\ rd_task s1 = rd_task s /\ rd_pending s1 = rd_pending s /\ rd_egress s1 = rd_egress s /\ rd_cmds s1 = rd_cmds s /\
  rd_done s1 = rd_done s /\ rd_id s1 = rd_id s /\ rd_dropped s1 = rd_dropped s.
Proof.
  cbv zeta. unfold rd_do_flush. destruct (rd_flush s); [|auto 9].
  destruct (match ro_flush_interval o with Some _ => e_flush_tick e | None => true end); [|auto 9].
  destruct (rd_conn s) eqn:C; [|auto 9]. destruct (e_flush_ok e); [|auto 9]. cbn. auto 9.
Qed.

(** An inactive iteration without a running task. *)
Lemma inactive_iter o co D e s b : rd_conn s = RInactive b -> rd_task s = false -> rd_done s = false ->
  bo_poll (e_now e) b = (bo_reset (e_now e) b, BPending) \/ (exists b' d, bo_poll (e_now e) b = (b', BYield d)) ->
  exists s', rd_step o co D s (EIter e) = (s', match snd (bo_poll (e_now e) b) with BYield _ => [StartConnect] | _ => [] end) /\
    rd_conn s' = RInactive (fst (bo_poll (e_now e) b)) /\ rd_task s' = match snd (bo_poll (e_now e) b) with BYield _ => true | _ => false end /\
    rd_done s' = false /\ rd_egress s' = rd_egress s /\ rd_pending s' = rd_pending s /\ rd_cmds s' = rd_cmds s /\ rd_id s' = rd_id s /\ rd_dropped s' = rd_dropped s.
Proof.
  intros Hc Ht Hd Hb. cbn [rd_step]. rewrite Hd. unfold rd_iter.
  destruct (flush_same o e s) as (F1 & F2 & F3 & F4 & F5 & F6 & F7 & F8). unfold rd_do_task. rewrite F2, Ht, F1, Hc.
  unfold rd_do_inactive. rewrite F2, Ht. destruct Hb as [Hb|(b' & d & Hb)]; rewrite Hb; cbn [fst snd]; eexists; (split; [reflexivity|]); cbn;
    rewrite ?F3, ?F4, ?F5, ?F6, ?F7, ?F8, ?Ht; auto 9.
Qed.

(*@prop C15, what holds: after a wire/transport error on an established connection (at any point of any history) the socket
    retries: it starts a connection attempt once its 20 ms back-off has passed, and when that succeeds the connection is
    active again with every queued request, waiting frame and outstanding call preserved. *)
Lemma C15_reconnects_after_error_partial_pf :
  forall o co D evs s log e0 e1 e2 e3,
  rd_run o co D rd_init evs = (s, log) -> rd_done s = false -> rd_conn s = RActive ->
  e_next e0 = NxErr ->
  e_now e1 + 20000000 <= e_now e2 ->
  e_task e3 = Some true -> e_next e3 = NxPending -> e_ready e3 = false -> e_ticks e3 = 0%nat -> e_recv e3 = false ->
  exists s', rd_run o co D s [EIter e0; EIter e1; EIter e2; EIter e3] = (s', [StartConnect; Connected]) /\
    rd_conn s' = RActive /\ rd_done s' = false /\
    rd_egress s' = rd_egress s /\ rd_pending s' = rd_pending s /\ rd_cmds s' = rd_cmds s.
Proof.
  intros o co D evs s L e0 e1 e2 e3 R Hd Hc H0 H2 T3 N3 R3 K3 V3.
  assert (Ht : rd_task s = false) by (eapply reachable_active_task; eauto).
  cbn [rd_run].
  (* e0: reset *)
  assert (S0 : exists s0, rd_step o co D s (EIter e0) = (s0, []) /\ rd_conn s0 = RInactive reconnect_backoff /\ rd_task s0 = false /\ rd_done s0 = false /\
     rd_egress s0 = rd_egress s /\ rd_pending s0 = rd_pending s /\ rd_cmds s0 = rd_cmds s).
  { cbn [rd_step]. rewrite Hd. unfold rd_iter. destruct (flush_same o e0 s) as (F1 & F2 & F3 & F4 & F5 & F6 & F7 & F8).
    unfold rd_do_task. rewrite F2, Ht, F1, Hc. unfold rd_do_active. rewrite H0. eexists. split; [reflexivity|]. cbn. rewrite F2, F3, F4, F5, F6, Ht, Hd. auto 9. }
  destruct S0 as (s0 & -> & C0 & Tk0 & D0 & E0 & P0 & Q0). cbn [app].
  (* e1: arm *)
  destruct (inactive_iter o co D e1 s0 _ C0 Tk0 D0) as (s1 & -> & C1 & Tk1 & D1 & E1 & P1 & Q1 & _ & _).
  { left. unfold bo_poll, reconnect_backoff, bo_new, bo_armed. cbn [bo_timeout bo_cur]. rewrite (proj2 (N.leb_gt _ _)) by lia. reflexivity. }
  assert (B1 : bo_poll (e_now e1) reconnect_backoff = (mkBackoff 0 16 20000000 (Some (e_now e1 + 20000000)), BPending)).
  { unfold bo_poll, reconnect_backoff, bo_new, bo_armed. cbn [bo_timeout bo_cur]. rewrite (proj2 (N.leb_gt _ _)) by lia. reflexivity. }
  rewrite B1 in *. cbn [fst snd app] in *.
  (* e2: yield *)
  assert (B2 : exists b', bo_poll (e_now e2) (mkBackoff 0 16 20000000 (Some (e_now e1 + 20000000))) = (b', BYield 40000000)).
  { unfold bo_poll, bo_armed. cbn [bo_timeout bo_cur bo_max bo_count]. rewrite (proj2 (N.leb_le _ _)) by lia. eexists. reflexivity. }
  destruct B2 as (b' & B2).
  destruct (inactive_iter o co D e2 s1 _ C1 Tk1 D1) as (s2 & -> & C2 & Tk2 & D2 & E2 & P2 & Q2 & _ & _).
  { right. eauto. }
  rewrite B2 in *. cbn [fst snd] in *.
  (* e3: connected *)
  cbn [rd_step]. rewrite D2. unfold rd_iter. destruct (flush_same o e3 s2) as (F1 & F2 & F3 & F4 & F5 & F6 & F7 & F8).
  unfold rd_do_task. rewrite F2, Tk2, T3. cbn [rd_conn set_conn]. unfold rd_do_active. rewrite N3, R3, K3. cbn [rd_ticks]. unfold rd_do_command. rewrite V3.
  cbn [app]. eexists. split; [reflexivity|]. cbn. rewrite F3, F4, F5, F6, D2, E2, E1, E0, P2, P1, P0, Q2, Q1, Q0. auto 9.
Qed.

(*@prop C15 is violated when the server closes the connection cleanly: in every reachable state with an active connection, EOF
    ends the driver for good.  No further connection attempt is ever made and every later request fails. *)
Lemma C15_eof_is_final_refuted_pf :
  forall o co D evs s log e,
  rd_run o co D rd_init evs = (s, log) -> rd_done s = false -> rd_conn s = RActive -> e_next e = NxEof ->
  exists s' new, rd_step o co D s (EIter e) = (s', new) /\ rd_done s' = true /\
    forall later s'' log', rd_run o co D s' later = (s'', log') ->
      log' = map (fun q => Resolve (fst q) OClosed) (issued later).
Proof.
  intros o co D evs s L e R Hd Hc Hn. assert (Ht : rd_task s = false) by (eapply reachable_active_task; eauto).
  cbn [rd_step]. rewrite Hd. unfold rd_iter. destruct (flush_same o e s) as (F1 & F2 & _).
  unfold rd_do_task. rewrite F2, Ht, F1, Hc. unfold rd_do_active. rewrite Hn. cbn [rd_finish app].
  eexists _, _. split; [reflexivity|]. split; [reflexivity|]. intros later.
  match goal with |- forall s'' log', rd_run o co D ?x later = _ -> _ => generalize x (eq_refl : rd_done x = true) end.
  induction later as [|ev later IH]; intros s0 D0 s'' log' H; cbn [rd_run] in H; [inversion H; reflexivity|].
  destruct ev as [c p| |e']; cbn [rd_step] in H; rewrite ?D0 in H; cbn [orb] in H.
  - destruct (rd_run o co D s0 later) as [s2 o2] eqn:R2. inversion H; subst. cbn. f_equal. exact (IH s0 D0 _ _ R2).
  - match type of H with (let (_, _) := rd_run _ _ _ ?x _ in _) = _ => destruct (rd_run o co D x later) as [s2 o2] eqn:R2; pose proof (IH x ltac:(first [exact D0|reflexivity]) _ _ R2) end.
    inversion H; subst. reflexivity.
  - destruct (rd_run o co D s0 later) as [s2 o2] eqn:R2. inversion H; subst. exact (IH s0 D0 _ _ R2).
Qed.

(*@example *)
Lemma C15_example_pf :
  forall D, let r := rd_run ex_opts None D rd_init ex_hist in rd_done (fst r) = false /\ rd_conn (fst r) = RActive.
Proof. intros D. split; reflexivity. Qed.

(*@prop C16: once the driver has ended, in whatever way, every request() call ever made has its result (nobody hangs). *)
Lemma C16_all_resolved_when_stopped_pf :
  forall o co D evs s log,
  rd_run o co D rd_init evs = (s, log) -> rd_done s = true ->
  forall c, In c (map fst (issued evs)) -> In c (resolved log).
Proof.
  intros o co D evs s L R Hd c Hc. destruct (run_acct o co D evs s L R) as (P & _ & Dn). specialize (Dn Hd).
  rewrite Dn, app_nil_r in P. eapply Permutation_in; eauto.
Qed.

(*@prop C16: and before that no call is lost: a call without a result is still queued or still waiting for its response. *)
Lemma C16_no_call_lost_pf :
  forall o co D evs s log,
  rd_run o co D rd_init evs = (s, log) ->
  Permutation (map fst (issued evs)) (resolved log ++ map fst (rd_cmds s) ++ map (fun p => snd (snd p)) (rd_pending s)).
Proof. intros o co D evs s L R. exact (proj1 (run_acct o co D evs s L R)). Qed.

(*@prop C16: when the driver ends in an iteration, the calls that had no result before get SocketClosed. *)
Lemma C16_stop_closes_outstanding_pf :
  forall s c r, In (Resolve c r) (snd (rd_finish s)) -> r = OClosed.
Proof.
  intros s c r H. cbn in H. apply in_app_or in H. destruct H as [H|H]; apply in_map_iff in H; destruct H as (? & X & _); inversion X; reflexivity.
Qed.

(*@example *)
Lemma C16_example_pf :
  forall D, let r := rd_run ex_opts None D rd_init (ex_hist ++ [EReq 9 []; EIter (ex_in (31 * ms) NxEof); EReq 10 []]) in
  rd_done (fst r) = true /\ filter (fun x => match x with Resolve _ _ => true | _ => false end) (snd r) =
     [Resolve 7 OClosed; Resolve 8 OClosed; Resolve 9 OClosed; Resolve 10 OClosed].
Proof. intros D. split; reflexivity. Qed.

(** * Retry policy *)
Lemma bo_count_yield now b b' d : bo_poll now b = (b', BYield d) -> bo_count b' = bo_count b + 1 /\ bo_max b' = bo_max b /\ bo_count b' < bo_max b'.
Proof.
  assert (X : forall dl, bo_armed now dl b = (b', BYield d) -> bo_count b' = bo_count b + 1 /\ bo_max b' = bo_max b /\ bo_count b' < bo_max b').
  { intros dl. unfold bo_armed. destruct (dl <=? now); [|discriminate]. destruct (DURATION_MAX <? bo_cur b * 2); [discriminate|]. cbn [bo_count].
    destruct (bo_max b <=? bo_count b + 1) eqn:M; [discriminate|]. intros H; inversion H; subst. cbn. lia. }
  unfold bo_poll. destruct (bo_timeout b) as [dl|]; [apply X|]. intros H. unfold bo_armed, bo_reset in *. cbn [bo_cur bo_count bo_max bo_timeout] in *.
  destruct (now + bo_cur b <=? now); [|discriminate]. destruct (DURATION_MAX <? bo_cur b * 2); [discriminate|].
  destruct (bo_max b <=? bo_count b + 1) eqn:M; [discriminate|]. inversion H; subst. cbn. lia.
Qed.
Lemma bo_count_pending now b b' : bo_poll now b = (b', BPending) -> bo_count b' = bo_count b /\ bo_max b' = bo_max b.
Proof.
  unfold bo_poll, bo_armed. destruct (bo_timeout b) as [dl|].
  - destruct (dl <=? now); [|intros H; inversion H; auto]. destruct (DURATION_MAX <? bo_cur b * 2); [discriminate|].
    destruct (bo_max b <=? _); discriminate.
  - destruct (now + bo_cur b <=? now); [|intros H; inversion H; auto]. cbn [bo_reset bo_cur bo_max]. destruct (DURATION_MAX <? bo_cur b * 2); [discriminate|].
    destruct (bo_max b <=? _); discriminate.
Qed.

Definition att_inv (L : list out) (s : rd) : Prop :=
  (attempts L <= 15)%nat /\
  (rd_done s = false -> exists b, rd_conn s = RInactive b /\ bo_max b = 16 /\ bo_count b <= 15 /\ N.of_nat (attempts L) <= bo_count b).

Lemma attempts_app a b : attempts (a ++ b) = (attempts a + attempts b)%nat.
Proof. unfold attempts. rewrite filter_app, app_length. reflexivity. Qed.
Lemma attempts_resolve {A} (f : A -> N) l : attempts (map (fun p => Resolve (f p) OClosed) l) = 0%nat.
Proof. induction l; [reflexivity|assumption]. Qed.

Lemma att_step o co D s ev s' os L : att_inv L s -> rd_step o co D s ev = (s', os) -> ~ In Connected os -> att_inv (L ++ os) s'.
Proof.
  intros [I1 I2] St Hnc. unfold att_inv. rewrite attempts_app. destruct ev as [c p| |e].
  - cbn [rd_step] in St. destruct (rd_done s || rd_dropped s); inversion St; subst; cbn [attempts filter length]; rewrite Nat.add_0_r; auto.
  - inversion St; subst. change (attempts []) with 0%nat. rewrite Nat.add_0_r. auto.
  - cbn [rd_step] in St. destruct (rd_done s) eqn:Dn; [inversion St; subst; change (attempts []) with 0%nat; rewrite Nat.add_0_r; rewrite Dn; split; [exact I1|discriminate]|].
    destruct (I2 eq_refl) as (b & Cb & Mb & Cle & Ale). clear I2.
    destruct (flush_same o e s) as (F1 & F2 & F3 & F4 & F5 & F6 & F7 & F8).
    destruct (rd_iter o co D e s) as [[sx ox] c] eqn:E. inversion St; subst. clear St. unfold rd_iter in E.
    destruct (rd_do_task e (rd_do_flush o e s)) as [s2 o2] eqn:T.
    assert (H2 : attempts o2 = 0%nat /\ rd_conn s2 = RInactive b).
    { unfold rd_do_task in T. destruct (rd_task (rd_do_flush o e s)).
      - destruct (e_task e) as [[|]|]; inversion T; subst.
        + exfalso. destruct (rd_conn (set_conn (rd_do_flush o e s) false RActive)).
          * destruct (rd_do_active o co D e _) as [[? ?] ?]. inversion E; subst. apply Hnc. left; reflexivity.
          * destruct (rd_do_inactive e b0 _) as [[? ?] ?]. inversion E; subst. apply Hnc. left; reflexivity.
        + cbn. rewrite F1. auto.
        + rewrite F1. auto.
      - inversion T; subst. rewrite F1. auto. }
    destruct H2 as [A2 C2]. rewrite C2 in E. unfold rd_do_inactive in E.
    destruct (bo_poll (e_now e) b) as [b' [d| | |]] eqn:B.
    + apply bo_count_yield in B. destruct B as (B1 & B2 & B3).
      destruct (rd_task s2); inversion E; subst; rewrite attempts_app, A2; cbn [attempts filter length app rd_done set_conn rd_conn].
      * split; [lia|]. intros _. exists b'. split; [reflexivity|]. lia.
      * split; [lia|]. intros _. exists b'. split; [reflexivity|]. lia.
    + cbn in E. inversion E; subst. rewrite !attempts_app, !attempts_resolve, A2. split; [lia|discriminate].
    + apply bo_count_pending in B. destruct B as (B1 & B2). inversion E; subst. rewrite app_nil_r, A2. split; [lia|].
      intros _. exists b'. split; [reflexivity|]. lia.
    + cbn in E. inversion E; subst. rewrite !attempts_app, !attempts_resolve, A2. split; [lia|discriminate].
Qed.

(*@prop C18, what holds instead: whatever the options, without a successful connection at most 15 attempts are made. *)
Lemma C18_at_most_15_attempts_partial_pf :
  forall o co D evs s log,
  rd_run o co D rd_init evs = (s, log) -> never_connected log -> (attempts log <= 15)%nat.
Proof.
  intros o co D evs s L R N. enough (X : att_inv L s) by apply X. revert s L R N.
  induction evs as [|ev evs IH] using rev_ind; intros s L R N.
  - inversion R; subst. split; [cbn; lia|]. intros _. eexists. split; [reflexivity|]. cbn. lia.
  - rewrite run_snoc in R. destruct (rd_run o co D rd_init evs) as [s1 o1]. destruct (rd_step o co D s1 ev) as [s2 o2] eqn:St.
    inversion R; subst. eapply att_step; eauto.
    + apply IH; [reflexivity|]. intros X. apply N, in_or_app. left; exact X.
    + intros X. apply N, in_or_app. right; exact X.
Qed.

(*@prop C18 is violated: for ALL options (in particular retry_attempts = None, documented as "retry indefinitely", or any
    number, and any backoff_duration) there is a run of failing connections, polled promptly, after which the driver has given up
    for good: 15 attempts, the first 20 ms after the start, the waits doubling from 20 ms. *)
Lemma C18_retry_options_ignored_refuted_pf :
  forall o co D, exists evs,
    evs = map (fun k => EIter (ex_conn (20 * ms * (2 ^ N.of_nat k - 1)) false)) (seq 0 17) /\
    rd_done (fst (rd_run o co D rd_init evs)) = true /\ attempts (snd (rd_run o co D rd_init evs)) = 15%nat /\
    (forall later, attempts (snd (rd_run o co D (fst (rd_run o co D rd_init evs)) later)) = 0%nat).
Proof.
  intros o co D. eexists. split; [reflexivity|].
  set (r := rd_run o co D rd_init _).
  assert (Hr : rd_done (fst r) = true /\ attempts (snd r) = 15%nat) by (split; vm_compute; reflexivity).
  destruct Hr as [H1 H2]. split; [exact H1|]. split; [exact H2|]. clearbody r. destruct r as [s L]. cbn [fst] in *. clear L H2.
  intros later. revert s H1. induction later as [|ev later IH]; intros s Dn; [reflexivity|]. cbn [rd_run].
  destruct ev as [c p| |e]; cbn [rd_step]; rewrite ?Dn; cbn [orb].
  - specialize (IH s Dn). destruct (rd_run o co D s later). exact IH.
  - match goal with |- context [rd_run o co D ?x later] => specialize (IH x ltac:(first [exact Dn|reflexivity])); destruct (rd_run o co D x later) end. exact IH.
  - specialize (IH s Dn). destruct (rd_run o co D s later). exact IH.
Qed.

(*@prop C18: the options retry_attempts, backoff_duration and blocking_connect have no influence on any history. *)
Lemma C18_options_without_effect_refuted_pf :
  forall t b b' bd bd' f r r' m co D evs s,
  rd_run (mkROpts t b bd f r m) co D s evs = rd_run (mkROpts t b' bd' f r' m) co D s evs.
Proof.
  intros t b b' bd bd' f r r' m co D evs. induction evs as [|ev evs IH]; intros s; [reflexivity|]. cbn [rd_run].
  assert (T : forall n now s, rd_ticks (mkROpts t b bd f r m) n now s = rd_ticks (mkROpts t b' bd' f r' m) n now s).
  { clear. induction n as [|n IH]; intros now s; [reflexivity|]. cbn [rd_ticks].
    change (rd_check_timeouts (mkROpts t b bd f r m) now s) with (rd_check_timeouts (mkROpts t b' bd' f r' m) now s).
    destruct (rd_check_timeouts _ now s) as [s1 o1]. rewrite IH. reflexivity. }
  assert (I : forall e s, rd_iter (mkROpts t b bd f r m) co D e s = rd_iter (mkROpts t b' bd' f r' m) co D e s).
  { intros e s0. unfold rd_iter. change (rd_do_flush (mkROpts t b bd f r m) e s0) with (rd_do_flush (mkROpts t b' bd' f r' m) e s0).
    destruct (rd_do_task e _) as [s2 o2]. destruct (rd_conn s2); [|reflexivity]. unfold rd_do_active. rewrite T. reflexivity. }
  assert (S : rd_step (mkROpts t b bd f r m) co D s ev = rd_step (mkROpts t b' bd' f r' m) co D s ev).
  { destruct ev as [c p| |e]; reflexivity. }
  rewrite S. destruct (rd_step (mkROpts t b' bd' f r' m) co D s ev) as [s1 o1]. rewrite IH. reflexivity.
Qed.

(*@example *)
Lemma C18_example_pf :
  forall D, let r := rd_run ex_opts None D rd_init [EIter (ex_env 0); EIter (ex_env (20 * ms)); EIter (ex_conn (21 * ms) false); EIter (ex_env (60 * ms))] in
  never_connected (snd r) /\ attempts (snd r) = 2%nat.
Proof. intros D. split; [|reflexivity]. intros H. vm_compute in H. repeat destruct H as [H|H]; try discriminate H; try destruct H. Qed.

(** * Byte counters *)
Lemma encode_len m : blen (rr_encode m) = rr_header_len + blen (rr_payload m) + 1.
Proof. unfold rr_encode, rr_header_len, blen. cbn [length]. rewrite !app_length, !put_be_length. lia. Qed.

Lemma taken_handed L : forall m, In m (taken L) -> In m (handed L).
Proof. induction L as [|x L IH]; intros m; [intros []|]. destruct x as [| |m' [|]| | | |]; cbn; try apply IH; try (intros [->|H]; [left; reflexivity|right; apply IH, H]). intros H; right; apply IH, H. Qed.

(*@prop C21 (request socket) is violated: bytes_tx is too small by one byte (the wire id) for every frame.  Exact law: in every
    history, bytes_tx + number of frames taken by connections = number of bytes of their encodings (payloads below 4 GiB). *)
Lemma C21_request_bytes_tx_partial_pf :
  forall o co D evs s log,
  rd_run o co D rd_init evs = (s, log) -> (forall m, In m (taken log) -> blen (rr_payload m) < 2 ^ 32) ->
  rd_tx s + N.of_nat (length (taken log)) = sum_len (map rr_encode (taken log)).
Proof.
  intros o co D evs s L R Hs. pose proof (run_tx o co D evs s L R) as T. unfold tx_inv in T. rewrite T.
  destruct (run_order o co D evs s L R) as (acc & rest & E & (O1 & O2 & O3 & O4) & Hr).
  assert (Hsz : forall m, In m (taken L) -> rr_payload_size m = blen (rr_payload m)).
  { intros m Hm. assert (In m (map snd (accepted L))) as Hin by (rewrite <- O3; apply in_or_app; left; apply taken_handed, Hm).
    rewrite O2 in Hin. apply In_nth_error in Hin. destruct Hin as [k Hk]. rewrite frames_nth in Hk.
    destruct (nth_error (map snd acc) k) as [p|]; [|discriminate]. cbn in Hk. inversion Hk as [Hk']. specialize (Hs m Hm). rewrite <- Hk' in *.
    unfold frame_of, req_into_wire, rr_payload_size, rr_new in *. cbn [rr_hdr rrh_size rr_payload] in *. unfold as_u32. apply N.mod_small. exact Hs. }
  clear - Hsz. revert Hsz. induction (taken L) as [|m l IH]; intros Hsz; [reflexivity|]. cbn [fold_right map sum_len length].
  fold (sum_len (map rr_encode l)). rewrite <- IH by (intros m' Hm'; apply Hsz; right; exact Hm').
  rewrite encode_len. unfold rr_size. rewrite (Hsz m (or_introl eq_refl)). lia.
Qed.

(*@prop C21 (request socket): a witness of the violation. *)
Lemma C21_request_bytes_tx_refuted_pf :
  forall D, let r := rd_run ex_opts None D rd_init ex_hist in
  rd_tx (fst r) = 22 /\ sum_len (map rr_encode (taken (snd r))) = 24.
Proof. intros D. split; reflexivity. Qed.

(** * Termination of one poll *)
Lemma ticks_queues o n now : forall s, rd_egress (fst (rd_ticks o n now s)) = rd_egress s /\ rd_cmds (fst (rd_ticks o n now s)) = rd_cmds s.
Proof.
  induction n as [|n IH]; intros s; [auto|]. cbn [rd_ticks]. unfold rd_check_timeouts. destruct (remove_timed_out _ _) as [p' os].
  match goal with |- context [rd_ticks o n now ?x] => specialize (IH x); destruct (rd_ticks o n now x) end. exact IH.
Qed.

Lemma continue_decreases o co D e s s' os : rd_iter o co D e s = (s', os, CContinue) ->
  (S (length (rd_egress s') + 2 * length (rd_cmds s')) <= length (rd_egress s) + 2 * length (rd_cmds s) +
     match e_next e with NxMsg _ | NxErr => 1 | _ => 0 end)%nat.
Proof.
  unfold rd_iter. destruct (flush_same o e s) as (F1 & F2 & F3 & F4 & F5 & F6 & F7 & F8).
  destruct (rd_do_task e (rd_do_flush o e s)) as [s2 o2] eqn:T.
  assert (Q : rd_egress s2 = rd_egress s /\ rd_cmds s2 = rd_cmds s).
  { unfold rd_do_task in T. destruct (rd_task (rd_do_flush o e s)); [destruct (e_task e) as [[|]|]|]; inversion T; subst; cbn; auto. }
  destruct Q as [Q1 Q2]. destruct (rd_conn s2).
  - unfold rd_do_active. destruct (e_next e) as [m| | |].
    + unfold rd_on_message. destruct (mget (rr_id m) (rd_pending s2)) as [[? ?]|]; [destruct (try_decompress D (rr_ctype m) (rr_payload m))|];
        intros H; inversion H; subst; cbn; rewrite Q1, Q2; lia.
    + intros H; inversion H; subst; cbn; rewrite Q1, Q2; lia.
    + cbn. intros H; inversion H.
    + destruct (if e_ready e then rd_egress s2 else []) as [|m q] eqn:Eq.
      * destruct (ticks_queues o (e_ticks e) (e_now e) s2) as [X1 X2]. destruct (rd_ticks o (e_ticks e) (e_now e) s2) as [s4 o4]. cbn [fst] in *.
        unfold rd_do_command. destruct (e_recv e); [|intros H; inversion H]. destruct (rd_cmds s4) as [|[c p] rest] eqn:Cm.
        -- destruct (rd_dropped s4); [destruct (e_close e); cbn|]; intros H; inversion H.
        -- cbn. intros H; inversion H; subst. cbn. rewrite app_length, X1, Q1. rewrite <- Q2, <- X2. cbn. lia.
      * assert (rd_egress s2 = m :: q) as Em by (destruct (e_ready e); [exact Eq|discriminate]). rewrite Q1 in Em.
        destruct (e_send e); intros H; inversion H; subst; cbn; rewrite Em, Q2; cbn; lia.
  - unfold rd_do_inactive. destruct (bo_poll (e_now e) b) as [b' [d| | |]]; cbn.
    + destruct (rd_task s2); intros H; inversion H.
    + intros H; inversion H.
    + intros H; inversion H.
    + intros H; inversion H.
Qed.

(*@prop C57 (request driver): if a poll is still looping after the iterations with answers [es], then their number is at most
    the number of inbound messages/errors found plus frames waiting plus twice the queued commands.  So, with finitely many
    inbound messages, every poll returns. *)
Lemma C57_request_poll_returns_pf :
  forall o co D es s s' new,
  rd_poll o co D es s = (s', new, None) ->
  (length es <= inbound es + length (rd_egress s) + 2 * length (rd_cmds s))%nat.
Proof.
  intros o co D es. induction es as [|e es IH]; intros s s' new H; [cbn; lia|]. cbn [rd_poll] in H.
  destruct (rd_iter o co D e s) as [[s1 o1] c] eqn:E. destruct c; try discriminate.
  destruct (rd_poll o co D es s1) as [[s2 o2] r] eqn:P. inversion H; subst. specialize (IH _ _ _ P).
  apply continue_decreases in E. unfold inbound in *. cbn [filter length]. destruct (e_next e); cbn [length] in *; lia.
Qed.

(*@example *)
Lemma C57_request_example_pf :
  forall D, let s := fst (rd_run ex_opts None D rd_init (firstn 5 ex_hist)) in
  length (rd_egress s) = 1%nat /\ length (rd_cmds s) = 1%nat /\
  snd (rd_poll ex_opts None D [ex_env 0; ex_env 0; ex_env 0] s) = None /\
  snd (rd_poll ex_opts None D [ex_env 0; ex_env 0; ex_env 0; ex_env 0] s) = Some CPending.
Proof. intros D. repeat split; reflexivity. Qed.
