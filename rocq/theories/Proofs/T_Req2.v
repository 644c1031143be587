(** More properties of the request socket: C60 (promptness), C61 (statistics), C62 (one attempt at a time). *)
From Coq Require Import List NArith.
From Verif Require Import Model.Base Model.Map Model.WireReqRep Model.Compression Model.Backoff Model.ReqDriver
  Spec.ReqSpec.
Import ListNotations.
Open Scope N_scope.
(*HEADEND*)
From Coq Require Import ZArith ZifyBool ZifyNat ZifyN Permutation.
From Verif Require Import Proofs.MapP Proofs.ReqDriverP Proofs.T_Req.

Lemma flush_done o e s : rd_done (rd_do_flush o e s) = rd_done s.
Proof. apply flush_same. Qed.

Lemma ticks_keep o n now : forall s, rd_done (fst (rd_ticks o n now s)) = rd_done s /\ rd_cmds (fst (rd_ticks o n now s)) = rd_cmds s /\
  rd_egress (fst (rd_ticks o n now s)) = rd_egress s /\ rd_conn (fst (rd_ticks o n now s)) = rd_conn s /\
  rd_task (fst (rd_ticks o n now s)) = rd_task s.
Proof.
  induction n as [|n IH]; intros s; cbn [rd_ticks]; [auto|].
  unfold rd_check_timeouts. destruct (remove_timed_out _ _) as [p' os]. cbn [fst].
  match goal with |- context [rd_ticks o n now ?x] => specialize (IH x); destruct (rd_ticks o n now x) as [s2 o2] end.
  cbn [fst] in *. cbn [rd_done rd_cmds rd_egress rd_conn rd_task] in IH. exact IH.
Qed.

Lemma task_keep e s s2 o2 : rd_do_task e s = (s2, o2) -> core s2 = core s.
Proof. unfold rd_do_task. destruct (rd_task s); [destruct (e_task e) as [[|]|]|]; intros H; inversion H; reflexivity. Qed.

Lemma iter_not_done o co D e s s1 o1 c : rd_iter o co D e s = (s1, o1, c) -> c <> CDone -> rd_done s1 = rd_done s.
Proof.
  unfold rd_iter. destruct (rd_do_task e (rd_do_flush o e s)) as [s2 o2] eqn:T. intros H Hc.
  assert (D2 : rd_done s2 = rd_done s).
  { apply task_keep in T. unfold core in T. inversion T. rewrite <- (flush_done o e s). assumption. }
  destruct (rd_conn s2) as [|b].
  - destruct (rd_do_active o co D e s2) as [[s3 o3] c3] eqn:A. inversion H; subst. clear H. unfold rd_do_active in A.
    destruct (e_next e) as [m| | |].
    + unfold rd_on_message in A. destruct (mget (rr_id m) (rd_pending s2)) as [[t cc]|];
        [destruct (try_decompress D (rr_ctype m) (rr_payload m))|]; inversion A; subst; exact D2.
    + inversion A; subst; exact D2.
    + destruct (rd_finish s2). inversion A; subst. contradiction.
    + destruct (if e_ready e then rd_egress s2 else []) as [|m q].
      * pose proof (ticks_keep o (e_ticks e) (e_now e) s2) as (K1 & _). destruct (rd_ticks o (e_ticks e) (e_now e) s2) as [s4 o4]. cbn [fst] in K1.
        destruct (rd_do_command o co e s4) as [[s5 o5] c5] eqn:C. inversion A; subst. clear A. unfold rd_do_command in C.
        destruct (e_recv e); [|inversion C; subst; congruence].
        destruct (rd_cmds s4) as [|[cc p] rest].
        -- destruct (rd_dropped s4); [|inversion C; subst; congruence]. destruct (e_close e); [|inversion C; subst; congruence].
           destruct (rd_finish s4). inversion C; subst. contradiction.
        -- unfold rd_on_command in C. inversion C; subst. cbn. congruence.
      * destruct (e_send e); inversion A; subst; exact D2.
  - destruct (rd_do_inactive e b s2) as [[s3 o3] c3] eqn:A. inversion H; subst. clear H. unfold rd_do_inactive in A.
    destruct (bo_poll (e_now e) b) as [b' [d| | |]].
    + destruct (rd_task s2); inversion A; subst; exact D2.
    + destruct (rd_finish _). inversion A; subst. contradiction.
    + inversion A; subst; exact D2.
    + destruct (rd_finish _). inversion A; subst. contradiction.
Qed.

Lemma iter_idle o co D e s s1 o1 : rd_iter o co D e s = (s1, o1, CPending) -> rd_conn s1 = RActive ->
  e_ready e = true -> e_recv e = true -> rd_cmds s1 = [] /\ rd_egress s1 = [].
Proof.
  unfold rd_iter. destruct (rd_do_task e (rd_do_flush o e s)) as [s2 o2] eqn:T. intros H Hc Hr Hv.
  destruct (rd_conn s2) as [|b] eqn:C2.
  - destruct (rd_do_active o co D e s2) as [[s3 o3] c3] eqn:A. inversion H; subst. clear H. unfold rd_do_active in A. rewrite Hr in A.
    destruct (e_next e) as [m| | |].
    + destruct (rd_on_message D (e_now e) s2 m); discriminate A.
    + discriminate A.
    + destruct (rd_finish s2); discriminate A.
    + destruct (rd_egress s2) as [|m q] eqn:Q.
      * pose proof (ticks_keep o (e_ticks e) (e_now e) s2) as (_ & K2 & K3 & _). destruct (rd_ticks o (e_ticks e) (e_now e) s2) as [s4 o4]. cbn [fst] in *.
        destruct (rd_do_command o co e s4) as [[s5 o5] c5] eqn:C. inversion A; subst. clear A. unfold rd_do_command in C. rewrite Hv in C.
        destruct (rd_cmds s4) as [|[cc p] rest] eqn:Cm.
        -- destruct (rd_dropped s4); [destruct (e_close e); [destruct (rd_finish s4); discriminate C|]|]; inversion C; subst; rewrite Cm, K3, Q; auto.
        -- destruct (rd_on_command _ _ _ _ _ _ _); discriminate C.
      * destruct (e_send e); discriminate A.
  - destruct (rd_do_inactive e b s2) as [[s3 o3] c3] eqn:A. inversion H; subst. exfalso. unfold rd_do_inactive in A.
    destruct (bo_poll (e_now e) b) as [b' [d| | |]].
    + destruct (rd_task s2); inversion A; subst; discriminate Hc.
    + destruct (rd_finish _); discriminate A.
    + inversion A; subst; discriminate Hc.
    + destruct (rd_finish _); discriminate A.
Qed.

Lemma poll_prims_order o co D es : forall s s' os r, rd_poll o co D es s = (s', os, r) -> r <> Some CDone ->
  rd_done s = false -> rd_dropped s = false ->
  forall acc L iss, iss = acc ++ rd_cmds s -> order_inv o co acc L s ->
  rd_done s' = false /\ rd_dropped s' = false /\
  exists acc', iss = acc' ++ rd_cmds s' /\ order_inv o co acc' (L ++ os) s'.
Proof.
  assert (Drop : forall e s os s', prims o co D e s os s' -> rd_done s' = false -> rd_dropped s' = rd_dropped s).
  { intros e s os s' H. induction H as [s|s1 os1 s2 os2 s3 Hp Hs IH]; intros Hd; [reflexivity|].
    rewrite (IH Hd). clear IH. assert (rd_done s3 = false -> rd_done s2 = false) as Mono.
    { clear Hd Hp. induction Hs as [|s1' ? ? ? ? Hp Hs IH]; intros Hd; [exact Hd|]. specialize (IH Hd).
      destruct Hp as [s s' os Hc Hs0|s m Hx|s|s s' m q ok Hq Hc|s c p rest' Hc|s].
      - apply core_fields in Hc. destruct Hc as (_ & _ & _ & _ & _ & _ & _ & _ & E). congruence.
      - unfold rd_on_message in IH. destruct (mget (rr_id m) (rd_pending s)) as [[? ?]|]; [destruct (try_decompress D (rr_ctype m) (rr_payload m))|]; auto.
      - unfold rd_check_timeouts in IH. destruct (remove_timed_out _ _). exact IH.
      - apply core_eq in Hc. destruct Hc as (_ & _ & _ & _ & _ & _ & _ & E1 & E2). congruence.
      - exact IH.
      - discriminate IH. }
    specialize (Mono Hd). destruct Hp as [s s' os Hc Hs0|s m Hx|s|s s' m q ok Hq Hc|s c p rest' Hc|s].
    - apply core_fields in Hc. destruct Hc as (_ & _ & _ & _ & _ & _ & _ & E & _). congruence.
    - unfold rd_on_message. destruct (mget (rr_id m) (rd_pending s)) as [[? ?]|]; [destruct (try_decompress D (rr_ctype m) (rr_payload m))|]; auto.
    - unfold rd_check_timeouts. destruct (remove_timed_out _ _). reflexivity.
    - apply core_eq in Hc. destruct Hc as (_ & _ & _ & _ & _ & _ & _ & E1 & E2). congruence.
    - reflexivity.
    - discriminate Mono. }
  induction es as [|e es IH]; intros s s' os r H Hr Hd Hp acc L iss E O; cbn [rd_poll] in H.
  - inversion H; subst. rewrite app_nil_r. split; [exact Hd|]. split; [exact Hp|]. exists acc. auto.
  - destruct (rd_iter o co D e s) as [[s1 o1] c] eqn:I.
    assert (Step : c <> CDone -> rd_done s1 = false /\ rd_dropped s1 = false /\
       exists acc1, iss = acc1 ++ rd_cmds s1 /\ order_inv o co acc1 (L ++ o1) s1).
    { intros Hc. assert (D1 : rd_done s1 = false) by (rewrite (iter_not_done _ _ _ _ _ _ _ _ I Hc); exact Hd).
      apply iter_prims in I. assert (P1 : rd_dropped s1 = false) by (rewrite (Drop _ _ _ _ I D1); exact Hp).
      split; [exact D1|]. split; [exact P1|].
      destruct (prims_order _ _ _ _ _ _ _ I acc L [] iss) as (acc' & rest' & E' & O' & R').
      - rewrite app_nil_r. exact E.
      - exact O.
      - reflexivity.
      - exists acc'. rewrite (R' D1 P1), app_nil_r in E'. auto. }
    destruct c.
    + destruct (rd_poll o co D es s1) as [[s2 o2] r2] eqn:P. inversion H; subst.
      destruct (Step ltac:(discriminate)) as (D1 & P1 & acc1 & E1 & O1). rewrite app_assoc.
      eapply IH; eauto.
    + inversion H; subst. apply Step. discriminate.
    + inversion H; subst. contradiction.
Qed.

(*@prop C60: whenever (after any history) a poll of the background task returns Pending with an established
    connection that accepts data, every request() call made so far has been turned into a frame and every frame
    has been handed to a connection: nothing sits in a queue while the task sleeps. *)
Lemma C60_no_request_left_behind_pf :
  forall o co D evs s log es s' new,
  rd_run o co D rd_init evs = (s, log) -> rd_done s = false -> rd_dropped s = false ->
  rd_poll o co D es s = (s', new, Some CPending) ->
  rd_conn s' = RActive -> (forall e, In e es -> e_ready e = true /\ e_recv e = true) ->
  map fst (accepted (log ++ new)) = map fst (issued evs) /\
  handed (log ++ new) = map snd (accepted (log ++ new)).
Proof.
  intros o co D evs s L es s' new R Hd Hp P Hc He.
  destruct (run_order o co D evs s L R) as (acc & rest & E & O & Hr). rewrite (Hr Hd Hp), app_nil_r in E.
  destruct (poll_prims_order o co D es s s' new _ P ltac:(discriminate) Hd Hp acc L _ E O) as (_ & _ & acc' & E' & O1 & _ & O3 & _).
  assert (X : rd_cmds s' = [] /\ rd_egress s' = []).
  { clear - P Hc He. revert s s' new P Hc. induction es as [|e es IH]; intros s s' new P Hc; cbn [rd_poll] in P; [discriminate|].
    destruct (rd_iter o co D e s) as [[s1 o1] c] eqn:I. destruct c.
    - destruct (rd_poll o co D es s1) as [[s2 o2] r2] eqn:P2. inversion P; subst. eapply IH; eauto. intros e' H'. apply He. right; exact H'.
    - inversion P; subst. destruct (He e (or_introl eq_refl)). eapply iter_idle; eauto.
    - inversion P. }
  destruct X as [X1 X2]. rewrite X1, app_nil_r in E'. rewrite X2, app_nil_r in O3. rewrite E'. auto.
Qed.

(*@example *)
Lemma C60_example_pf :
  forall D, let s := fst (rd_run ex_opts None D rd_init (firstn 5 ex_hist)) in
  let '(s', new, r) := rd_poll ex_opts None D [ex_env 0; ex_env 0; ex_env 0; ex_env 0] s in
  r = Some CPending /\ rd_conn s' = RActive /\ length (rd_cmds s) = 1%nat /\ length (rd_egress s) = 1%nat /\ length (handed new) = 2%nat.
Proof. intros D. vm_compute. repeat split. Qed.

(** * C61 *)
Lemma Forall2_impl {A B} (P Q : A -> B -> Prop) l1 l2 : (forall a b, P a b -> Q a b) -> Forall2 P l1 l2 -> Forall2 Q l1 l2.
Proof. intros H. induction 1; constructor; auto. Qed.

Definition hit (evs : N -> rr_msg -> Prop) (D : decompressors) (L : list out) (c : N) (h : N * N * rr_msg) : Prop :=
  let '(t, a, m) := h in
  (exists req, In (Accept t c req) L /\ rr_id req = rr_id m) /\ evs a m /\
  (exists x, In (Resolve c (OOk x)) L /\ try_decompress D (rr_ctype m) (rr_payload m) = Some x).
Definition st_inv evs D (L : list out) (s : rd) : Prop := exists hits : list (N * N * rr_msg),
  rd_rx s = fold_right (fun h n => rr_size (snd h) + n) 0 hits /\
  rd_rtts s = map (fun h => (snd (fst h) - fst (fst h)) / 1000) hits /\
  Forall2 (hit evs D L) (answered L) hits.

Lemma answered_app a b : answered (a ++ b) = answered a ++ answered b.
Proof. apply flat_map_app. Qed.

Lemma hit_app (evs evs' : N -> rr_msg -> Prop) D L os c h : (forall a m, evs a m -> evs' a m) -> hit evs D L c h -> hit evs' D (L ++ os) c h.
Proof.
  intros Hm. destruct h as [[t a] m]. intros ((req & H1 & H2) & H3 & x & H4 & H5). split; [|split].
  - exists req. split; [apply in_or_app; left; exact H1|exact H2].
  - auto.
  - exists x. split; [apply in_or_app; left; exact H4|exact H5].
Qed.

Lemma st_keep (evs evs' : N -> rr_msg -> Prop) D L s s' os : (forall a m, evs a m -> evs' a m) -> st_inv evs D L s ->
  rd_rx s' = rd_rx s -> rd_rtts s' = rd_rtts s -> answered os = [] -> st_inv evs' D (L ++ os) s'.
Proof.
  intros Hm (hits & H1 & H2 & H3) E1 E2 E3. exists hits. rewrite E1, E2, answered_app, E3, app_nil_r.
  split; [exact H1|]. split; [exact H2|]. eapply Forall2_impl; [|exact H3]. intros c h. apply hit_app, Hm.
Qed.

Lemma answered_timeouts ids : forall p, answered (snd (remove_timed_out ids p)) = [].
Proof. induction ids as [|i ids IH]; intros p; cbn; [auto|]. destruct (mget i p) as [[? ?]|]; [|apply IH].
  specialize (IH (mdel i p)). destruct (remove_timed_out ids (mdel i p)). exact IH. Qed.
Lemma answered_finish s : answered (snd (rd_finish s)) = [].
Proof. cbn. rewrite answered_app.
  assert (forall A (f : A -> N) l, answered (map (fun p => Resolve (f p) OClosed) l) = []) as X by (induction l as [|a l IH]; cbn; auto).
  rewrite (X _ (fun p : N * (N * N) => snd (snd p))), (X _ (fun p : N * bytes => fst p)). reflexivity. Qed.
Lemma answered_silent os : (forall x, In x os -> silent x = true) -> answered os = [].
Proof. induction os as [|x os IH]; intros H; [reflexivity|]. pose proof (H x (or_introl eq_refl)).
  change (x :: os) with ([x] ++ os). rewrite answered_app, IH by (intros y Hy; apply H; right; exact Hy). destruct x; try discriminate; reflexivity. Qed.

Lemma fold_hits_app a b : fold_right (fun (h : N * N * rr_msg) n => rr_size (snd h) + n) 0 (a ++ b) =
  fold_right (fun h n => rr_size (snd h) + n) 0 a + fold_right (fun h n => rr_size (snd h) + n) 0 b.
Proof. induction a as [|x a IH]; cbn [app fold_right]; [reflexivity|]. rewrite IH. lia. Qed.

Lemma prim_st o co D (evs : N -> rr_msg -> Prop) e s os s' L : prim o co D e s os s' -> pend_sound L s ->
  (forall m, e_next e = NxMsg m -> evs (e_now e) m) ->
  st_inv evs D L s -> st_inv evs D (L ++ os) s'.
Proof.
  intros H S Hev I. destruct H as [s s' os Hc Hs|s m Hx|s|s s' m q ok Hq Hc|s c p rest Hc|s].
  - apply core_fields in Hc. destruct Hc as (_ & _ & _ & _ & _ & E1 & E2 & _).
    apply st_keep with evs s; auto using answered_silent.
  - unfold rd_on_message. destruct (mget (rr_id m) (rd_pending s)) as [[t0 c0]|] eqn:G; [|apply st_keep with evs s; auto].
    destruct (try_decompress D (rr_ctype m) (rr_payload m)) as [x|] eqn:T; [|apply st_keep with evs s; auto].
    cbn [fst snd]. destruct I as (hits & H1 & H2 & H3). exists (hits ++ [(t0, e_now e, m)]). cbn [rd_rx rd_rtts].
    rewrite H1, H2, fold_hits_app, map_app, answered_app. cbn [fold_right map fst snd answered flat_map app]. split; [lia|]. split; [reflexivity|].
    apply Forall2_app.
    + eapply Forall2_impl; [|exact H3]. intros c h. apply hit_app. auto.
    + constructor; [|constructor]. destruct (S _ _ _ G) as (L1 & req & L2 & -> & Hid & _). split; [|split].
      * exists req. split; [|exact Hid]. apply in_or_app. left. apply in_or_app. right. left. reflexivity.
      * apply Hev, Hx.
      * exists x. split; [|exact T]. apply in_or_app. right. left. reflexivity.
  - unfold rd_check_timeouts. pose proof (answered_timeouts (timed_out_ids o (e_now e) (rd_pending s)) (rd_pending s)) as X.
    destruct (remove_timed_out _ _). cbn [fst snd] in *. apply st_keep with evs s; auto.
  - apply core_eq in Hc. destruct Hc as (_ & _ & _ & _ & _ & E1 & E2 & _). apply st_keep with evs s; auto.
  - apply st_keep with evs s; auto. cbn. destruct (mget _ _) as [[? ?]|]; reflexivity.
  - apply st_keep with evs s; auto. apply answered_finish.
Qed.

Lemma prims_st o co D (evs : N -> rr_msg -> Prop) e s os s' : prims o co D e s os s' -> (forall m, e_next e = NxMsg m -> evs (e_now e) m) ->
  forall L, keys_ok s -> pend_sound L s -> pend_complete L s -> st_inv evs D L s -> st_inv evs D (L ++ os) s'.
Proof.
  intros H Hev. induction H as [s|s1 os1 s2 os2 s3 Hp Hs IH]; intros L K S C I; [rewrite app_nil_r; exact I|].
  destruct (prim_pend _ _ _ _ _ _ _ L Hp K S C) as [S' C']. destruct (prim_acct _ _ _ _ _ _ _ Hp K) as [_ K'].
  rewrite app_assoc. apply IH; auto. eapply prim_st; eauto.
Qed.

Lemma run_st o co D evs s L : rd_run o co D rd_init evs = (s, L) ->
  st_inv (fun a m => exists e, In (EIter e) evs /\ e_now e = a /\ e_next e = NxMsg m) D L s.
Proof.
  revert s L. induction evs as [|ev evs IH] using rev_ind; intros s L H.
  - inversion H; subst. exists []. repeat split. constructor.
  - rewrite run_snoc in H. destruct (rd_run o co D rd_init evs) as [s1 o1] eqn:R1. specialize (IH s1 o1 eq_refl).
    destruct (run_acct _ _ _ evs s1 o1 R1) as (_ & K & _). destruct (run_pend _ _ _ evs s1 o1 R1) as (S & C).
    destruct (rd_step o co D s1 ev) as [s2 o2] eqn:St. inversion H; subst s2 L. clear H.
    assert (Mono : forall a m, (exists e, In (EIter e) evs /\ e_now e = a /\ e_next e = NxMsg m) ->
                               (exists e, In (EIter e) (evs ++ [ev]) /\ e_now e = a /\ e_next e = NxMsg m)).
    { intros a m (e & Hi & Hx). exists e. split; [apply in_or_app; left; exact Hi|exact Hx]. }
    destruct ev as [c p| |e].
    + cbn in St. destruct (rd_done s1 || rd_dropped s1); inversion St; subst; refine (st_keep _ _ _ _ _ _ _ Mono IH _ _ _); reflexivity.
    + inversion St; subst. refine (st_keep _ _ _ _ _ _ _ Mono IH _ _ _); reflexivity.
    + apply step_iter in St. destruct St as [(Hd & -> & ->)|[Hn Hp]]; [refine (st_keep _ _ _ _ _ _ _ Mono IH _ _ _); reflexivity|].
      eapply prims_st; eauto.
      * intros m Hx. exists e. split; [apply in_or_app; right; left; reflexivity|auto].
      * rewrite <- (app_nil_r o1). refine (st_keep _ _ _ _ _ _ _ Mono IH _ _ _); reflexivity.
Qed.

(*@prop C61: after every history the receive statistics are exactly about the calls that got a response: each such
    call corresponds to one accepted frame (accepted at time t), one response with the same id (arrived at time
    a), whose decompressed payload is the result; one round-trip time, (a - t) in microseconds, was recorded for
    each, in order; and bytes_rx is the total size of these responses on the wire minus one byte (the wire id)
    each, for well-formed responses.  Errors, timeouts and stray responses leave no trace. *)
Lemma C61_receive_statistics_partial_pf :
  forall o co D evs s log,
  rd_run o co D rd_init evs = (s, log) ->
  exists hits : list (N * N * rr_msg),
    Forall2 (fun c h => let '(t, a, m) := h in
               (exists req, In (Accept t c req) log /\ rr_id req = rr_id m) /\
               (exists e, In (EIter e) evs /\ e_now e = a /\ e_next e = NxMsg m) /\
               (exists x, In (Resolve c (OOk x)) log /\ try_decompress D (rr_ctype m) (rr_payload m) = Some x))
      (answered log) hits /\
    rd_rtts s = map (fun h => (snd (fst h) - fst (fst h)) / 1000) hits /\
    ((forall h, In h hits -> rr_payload_size (snd h) = blen (rr_payload (snd h))) ->
     rd_rx s + N.of_nat (length hits) = sum_len (map (fun h => rr_encode (snd h)) hits)).
Proof.
  intros o co D evs s L R. destruct (run_st o co D evs s L R) as (hits & H1 & H2 & H3).
  exists hits. split; [|split; [exact H2|]].
  - eapply Forall2_impl; [|exact H3]. intros c [[t a] m] H. exact H.
  - intros Hsz. rewrite H1. clear - Hsz. induction hits as [|h l IH]; [reflexivity|]. cbn [fold_right map sum_len length].
    fold (sum_len (map (fun h => rr_encode (snd h)) l)). rewrite <- IH by (intros m' Hm'; apply Hsz; right; exact Hm').
    rewrite encode_len. unfold rr_size. rewrite (Hsz h (or_introl eq_refl)). lia.
Qed.

(*@prop C61 (violated for bytes): bytes_rx misses one byte per response: 11 counted, 12 on the wire. *)
Lemma C61_receive_statistics_refuted_pf :
  forall D, let r := rd_run ex_opts None D rd_init (ex_hist ++ [EIter (ex_resp 0 [x41; x42])]) in
  answered (snd r) = [7] /\ rd_rx (fst r) = 11 /\ rd_rtts (fst r) = [9000] /\
  blen (rr_encode (rr_new 0 x00 [x41; x42])) = 12.
Proof. intros D. vm_compute. repeat split. Qed.

(** * C62 *)
Fixpoint flight (b : bool) (l : list out) : option bool :=
  match l with
  | [] => Some b
  | StartConnect :: l' => if b then None else flight true l'
  | Connected :: l' | ConnectFailed :: l' => flight false l'
  | _ :: l' => flight b l'
  end.
Lemma flight_app l1 : forall b l2, flight b (l1 ++ l2) = match flight b l1 with Some b' => flight b' l2 | None => None end.
Proof. induction l1 as [|x l1 IH]; intros b l2; [reflexivity|]. destruct x; cbn [app flight]; try apply IH. destruct b; [reflexivity|apply IH]. Qed.

Definition still (os : list out) : Prop := forall x, In x os -> match x with StartConnect | Connected | ConnectFailed => False | _ => True end.
Lemma flight_still os b : still os -> flight b os = Some b.
Proof. induction os as [|x os IH]; intros H; [reflexivity|]. pose proof (H x (or_introl eq_refl)).
  assert (still os) as H' by (intros y Hy; apply H; right; exact Hy). destruct x; cbn; try contradiction; apply IH, H'. Qed.
Lemma still_timeouts ids : forall p, still (snd (remove_timed_out ids p)).
Proof. induction ids as [|i ids IH]; intros p; cbn; [intros x []|]. destruct (mget i p) as [[? ?]|]; [|apply IH].
  specialize (IH (mdel i p)). destruct (remove_timed_out ids (mdel i p)). intros x [<-|H]; [exact I|apply IH, H]. Qed.
Lemma still_ticks o n now : forall s, still (snd (rd_ticks o n now s)).
Proof.
  induction n as [|n IH]; intros s; cbn [rd_ticks]; [intros x []|]. unfold rd_check_timeouts.
  pose proof (still_timeouts (timed_out_ids o now (rd_pending s)) (rd_pending s)) as X.
  destruct (remove_timed_out _ _) as [p' os]. cbn [snd] in X. 
  match goal with |- context [rd_ticks o n now ?x] => specialize (IH x); destruct (rd_ticks o n now x) as [s2 o2] end. cbn [snd] in *.
  intros x [<-|H]; [exact I|]. apply in_app_or in H. destruct H as [H|H]; [apply X, H|apply IH, H].
Qed.
Lemma still_finish s : still (snd (rd_finish s)).
Proof. intros x H. cbn in H. apply in_app_or in H. destruct H as [H|H]; apply in_map_iff in H; destruct H as (? & <- & _); exact I. Qed.

Lemma iter_flight o co D e s s' os c : rd_iter o co D e s = (s', os, c) ->
  exists b, flight (rd_task s) os = Some b /\ (rd_done s' = false -> b = rd_task s').
Proof.
  unfold rd_iter. destruct (rd_do_task e (rd_do_flush o e s)) as [s2 o2] eqn:T. intros H.
  assert (T2 : flight (rd_task s) o2 = Some (rd_task s2)).
  { destruct (flush_same o e s) as (_ & F2 & _). unfold rd_do_task in T. rewrite F2 in T. destruct (rd_task s) eqn:E.
    - destruct (e_task e) as [[|]|]; inversion T; subst; try reflexivity. rewrite F2. reflexivity.
    - inversion T; subst. rewrite F2. reflexivity. }
  assert (Fin : forall s3 s4 o4, rd_finish s3 = (s4, o4) -> exists b, flight (rd_task s) (o2 ++ o4) = Some b /\ (rd_done s4 = false -> b = rd_task s4)).
  { intros s3 s4 o4 F. exists (rd_task s2). rewrite flight_app, T2. pose proof (still_finish s3) as X. pose proof (f_equal (fun z => rd_done (fst z)) F) as Y.
    rewrite F in X. cbn in Y, X. split; [apply flight_still, X|congruence]. }
  assert (Keep : forall s4 o4, rd_task s4 = rd_task s2 -> still o4 -> exists b, flight (rd_task s) (o2 ++ o4) = Some b /\ (rd_done s4 = false -> b = rd_task s4)).
  { intros s4 o4 E St. exists (rd_task s2). rewrite flight_app, T2. split; [apply flight_still, St|congruence]. }
  assert (still []) as Sn by (intros x []).
  destruct (rd_conn s2) as [|b].
  - destruct (rd_do_active o co D e s2) as [[s3 o3] c3] eqn:A. inversion H; subst. clear H. unfold rd_do_active in A.
    destruct (e_next e) as [m| | |].
    + unfold rd_on_message in A. destruct (mget (rr_id m) (rd_pending s2)) as [[t cc]|];
        [destruct (try_decompress D (rr_ctype m) (rr_payload m))|]; inversion A; subst; apply Keep; try reflexivity; auto; intros x [<-|[]]; exact I.
    + inversion A; subst. apply Keep; auto.
    + destruct (rd_finish s2) eqn:F. inversion A; subst. eauto.
    + destruct (if e_ready e then rd_egress s2 else []) as [|m q].
      * pose proof (ticks_keep o (e_ticks e) (e_now e) s2) as (_ & _ & _ & _ & K). pose proof (still_ticks o (e_ticks e) (e_now e) s2) as SK.
        destruct (rd_ticks o (e_ticks e) (e_now e) s2) as [s4 o4]. cbn [fst snd] in K, SK.
        destruct (rd_do_command o co e s4) as [[s5 o5] c5] eqn:C. inversion A; subst. clear A.
        assert (X : still o5 /\ (rd_done s' = false -> rd_task s' = rd_task s4)).
        { unfold rd_do_command in C. destruct (e_recv e); [|inversion C; subst; auto]. destruct (rd_cmds s4) as [|[cc p] rest].
          - destruct (rd_dropped s4); [|inversion C; subst; auto]. destruct (e_close e); [|inversion C; subst; auto].
            pose proof (still_finish s4) as SF. destruct (rd_finish s4) as [sx ox] eqn:F. pose proof (f_equal (fun z => rd_done (fst z)) F) as Y.
            inversion C; subst. cbn in Y. split; [exact SF|congruence].
          - unfold rd_on_command in C. inversion C; subst. split; [|reflexivity].
            intros x [<-|Hx]; [exact I|]. destruct (mget _ _) as [[? ?]|]; [|destruct Hx]. destruct Hx as [<-|[]]. exact I. }
        destruct X as [X1 X2]. exists (rd_task s2). rewrite flight_app, T2. split.
        -- apply flight_still. intros x Hx. apply in_app_or in Hx. destruct Hx as [Hx|Hx]; [apply SK, Hx|apply X1, Hx].
        -- intros Hd. rewrite (X2 Hd). congruence.
      * destruct (e_send e); inversion A; subst; apply Keep; try reflexivity; intros x [<-|[]]; exact I.
  - destruct (rd_do_inactive e b s2) as [[s3 o3] c3] eqn:A. inversion H; subst. clear H. unfold rd_do_inactive in A.
    destruct (bo_poll (e_now e) b) as [b' [d| | |]].
    + destruct (rd_task s2) eqn:E; inversion A; subst; exists true; rewrite flight_app, T2; auto.
    + destruct (rd_finish _) eqn:F. inversion A; subst. eauto.
    + inversion A; subst. apply Keep; auto.
    + destruct (rd_finish _) eqn:F. inversion A; subst. eauto.
Qed.

Lemma run_flight o co D evs s L : rd_run o co D rd_init evs = (s, L) ->
  exists b, flight false L = Some b /\ (rd_done s = false -> b = rd_task s).
Proof.
  revert s L. induction evs as [|ev evs IH] using rev_ind; intros s L H.
  - inversion H; subst. exists false. auto.
  - rewrite run_snoc in H. destruct (rd_run o co D rd_init evs) as [s1 o1] eqn:R1. destruct (IH s1 o1 eq_refl) as (b & F & E).
    destruct (rd_step o co D s1 ev) as [s2 o2] eqn:St. inversion H; subst s2 L. clear H. rewrite flight_app, F.
    destruct ev as [c p| |e]; cbn [rd_step] in St.
    + destruct (rd_done s1 || rd_dropped s1); inversion St; subst; exists b; auto.
    + inversion St; subst. exists b. auto.
    + destruct (rd_done s1) eqn:Dn; [inversion St; subst; exists b; split; [reflexivity|congruence]|].
      destruct (rd_iter o co D e s1) as [[sx ox] c] eqn:I. inversion St; subst. rewrite (E eq_refl). eapply iter_flight; eauto.
Qed.

(*@prop C62: in every history there is at most one connection attempt in flight: between two attempts the first one has
    succeeded or failed. *)
Lemma C62_one_attempt_at_a_time_pf :
  forall o co D evs s log l1 l2 l3,
  rd_run o co D rd_init evs = (s, log) ->
  log = l1 ++ StartConnect :: l2 ++ StartConnect :: l3 ->
  In Connected l2 \/ In ConnectFailed l2.
Proof.
  intros o co D evs s L l1 l2 l3 R E. destruct (run_flight o co D evs s L R) as (b & F & _). rewrite E, flight_app in F.
  destruct (flight false l1) as [b1|]; [|discriminate]. cbn [flight] in F. destruct b1; [discriminate|]. rewrite flight_app in F.
  destruct (flight true l2) as [b2|] eqn:F2; [|discriminate]. cbn [flight] in F. destruct b2; [discriminate|].
  clear - F2. revert F2. assert (forall l, flight true l = Some false -> In Connected l \/ In ConnectFailed l) as X.
  { induction l as [|x l IH]; [discriminate|]. destruct x; cbn [flight]; intros H; try (destruct (IH H); [left; right; assumption|right; right; assumption]).
    - discriminate.
    - left; left; reflexivity.
    - right; left; reflexivity. }
  apply X.
Qed.

(*@example *)
Lemma C62_example_pf :
  forall D, snd (rd_run ex_opts None D rd_init
     [EIter (ex_env 0); EIter (ex_env (20 * ms)); EIter (ex_env (60 * ms)); EIter (ex_conn (61 * ms) false); EIter (ex_env (140 * ms))]) =
  [StartConnect; ConnectFailed; StartConnect].
Proof. intros D. vm_compute. reflexivity. Qed.

(** * Dropping the socket *)
Lemma T_Req2_map_nil {A} (f : A -> N) (g : A -> outcome) l : flat_map (fun x => match x with Handed m true => [m] | _ => [] end) (map (fun p => Resolve (f p) (g p)) l) = [].
Proof. induction l as [|x l IH]; [reflexivity|exact IH]. Qed.
Lemma T_Req2_map_nil2 {A} (f : A -> N) (g : A -> outcome) l : flat_map (fun x => match x with Accept _ c m => [(c, m)] | _ => [] end) (map (fun p => Resolve (f p) (g p)) l) = [].
Proof. induction l as [|x l IH]; [reflexivity|exact IH]. Qed.
Lemma step_dropped o co D s ev s' os : rd_step o co D s ev = (s', os) -> rd_dropped s = true -> rd_dropped s' = true.
Proof.
  intros St H. destruct ev as [c p| |e]; cbn [rd_step] in St.
  - rewrite H, Bool.orb_true_r in St. inversion St; subst. exact H.
  - inversion St; reflexivity.
  - destruct (rd_done s); [inversion St; subst; exact H|]. destruct (rd_iter o co D e s) as [[s1 o1] c] eqn:It. inversion St; subst. apply iter_prims in It. clear St.
    induction It as [|s1 os1 s2 os2 s3 P _ IH]; [exact H|]. apply IH. clear IH. destruct P as [s s' os Hc Hs|s m Hn|s|s s' m q ok Hq Hc|s x p rest Hc|s].
    + apply core_fields in Hc. destruct Hc as (_ & _ & _ & _ & _ & _ & _ & Hc & _). congruence.
    + unfold rd_on_message. destruct (mget _ _) as [[? ?]|]; [destruct (try_decompress _ _ _)|]; exact H.
    + unfold rd_check_timeouts. destruct (remove_timed_out _ _). exact H.
    + apply core_eq in Hc. destruct Hc as (_ & _ & _ & _ & _ & _ & _ & Hc & _). congruence.
    + exact H.
    + exact H.
Qed.
Lemma up_iter o co D e s s' os c : link_up e -> rd_done s = false -> rd_conn s = RActive -> rd_dropped s = true -> rd_iter o co D e s = (s', os, c) ->
  (e_next e <> NxPending /\ rd_done s' = false /\ rd_conn s' = RActive /\ rd_dropped s' = true /\ rd_egress s' = rd_egress s /\ rd_cmds s' = rd_cmds s /\ taken os = [] /\ accepted os = []) \/
  (e_next e = NxPending /\
   ((exists m, rd_done s' = false /\ rd_conn s' = RActive /\ rd_dropped s' = true /\ rd_egress s = m :: rd_egress s' /\ rd_cmds s' = rd_cmds s /\ taken os = [m] /\ accepted os = []) \/
    (exists x p m, rd_done s' = false /\ rd_conn s' = RActive /\ rd_dropped s' = true /\ rd_egress s = [] /\ rd_egress s' = [m] /\ rd_cmds s = (x, p) :: rd_cmds s' /\ taken os = [] /\ accepted os = [(x, m)]) \/
    (rd_done s' = true /\ rd_egress s = [] /\ rd_cmds s = [] /\ taken os = [] /\ accepted os = []))).
Proof.
  intros (T & Nx & Rd & Sd & Rc & Cl) Dn Co Dr I. unfold rd_iter in I.
  assert (Hf : rd_done (rd_do_flush o e s) = rd_done s /\ rd_conn (rd_do_flush o e s) = rd_conn s /\ rd_dropped (rd_do_flush o e s) = rd_dropped s /\ rd_egress (rd_do_flush o e s) = rd_egress s /\ rd_cmds (rd_do_flush o e s) = rd_cmds s).
  { unfold rd_do_flush. destruct (rd_flush s); [|auto]. destruct (match ro_flush_interval o with Some _ => _ | None => _ end); [|auto]. destruct (rd_conn s) eqn:Ec; [destruct (e_flush_ok e)|]; cbn; auto. }
  destruct Hf as (F1 & F2 & F3 & F4 & F5). set (s0 := rd_do_flush o e s) in *. clearbody s0. unfold rd_do_task in I. rewrite T in I.
  replace (if rd_task s0 then (s0, []) else (s0, [])) with (s0, @nil out) in I by (destruct (rd_task s0); reflexivity).
  rewrite F2, Co in I. unfold rd_do_active in I.
  destruct Nx as [Nx|(m & Nx)]; rewrite Nx in *.
  - right. split; [reflexivity|]. rewrite Rd in I. destruct (rd_egress s0) as [|m q] eqn:Eg.
    + pose proof (ticks_keep o (e_ticks e) (e_now e) s0) as (K1 & K2 & K3 & K4 & K5).
      assert (Kd : rd_dropped (fst (rd_ticks o (e_ticks e) (e_now e) s0)) = rd_dropped s0 /\ taken (snd (rd_ticks o (e_ticks e) (e_now e) s0)) = [] /\ accepted (snd (rd_ticks o (e_ticks e) (e_now e) s0)) = []).
      { clear. assert (Rm : forall ids p, taken (snd (remove_timed_out ids p)) = [] /\ accepted (snd (remove_timed_out ids p)) = []).
        { induction ids as [|i ids IH]; intros p; cbn [remove_timed_out]; [auto|]. destruct (mget i p) as [[? ?]|]; [|apply IH]. specialize (IH (mdel i p)). destruct (remove_timed_out ids (mdel i p)); exact IH. }
        generalize (e_ticks e) as n, s0 as s. induction n as [|n IH]; intros s; cbn [rd_ticks]; [auto|]. unfold rd_check_timeouts. specialize (Rm (timed_out_ids o (e_now e) (rd_pending s)) (rd_pending s)).
        destruct (remove_timed_out _ _) as [p' os']. cbn [snd] in Rm. match goal with |- context [rd_ticks o n (e_now e) ?x] => specialize (IH x); destruct (rd_ticks o n (e_now e) x) as [s2 o2] end.
        cbn [fst snd rd_dropped] in *. destruct IH as (I1 & I2 & I3). destruct Rm as [R1 R2]. split; [exact I1|]. unfold taken, accepted in *. cbn [app flat_map]. rewrite !flat_map_app, R1, R2, I2, I3. auto. }
      destruct Kd as (K6 & K7 & K8). destruct (rd_ticks o (e_ticks e) (e_now e) s0) as [s1 o1]. cbn [fst snd] in *.
      unfold rd_do_command in I. rewrite Rc, K2, F5 in I. destruct (rd_cmds s) as [|[x p] rest] eqn:Ecm.
      * rewrite K6, F3, Dr, Cl in I. right; right. cbn in I. inversion I; subst. cbn [rd_done]. repeat split; try congruence.
        -- unfold taken in *. rewrite flat_map_app, K7, flat_map_app. cbn [app]. rewrite !T_Req2_map_nil. reflexivity.
        -- unfold accepted in *. rewrite flat_map_app, K8, flat_map_app. cbn [app]. rewrite !T_Req2_map_nil2. reflexivity.
      * right; left. destruct (rd_on_command o co (e_now e) s1 rest x p) as [s2 o2] eqn:Oc. inversion I; subst s' os c. unfold rd_on_command in Oc. inversion Oc; subst s2 o2. clear Oc.
        eexists x, p, _. cbn [rd_done rd_conn rd_dropped rd_egress rd_cmds]. rewrite K3, Eg. split; [congruence|]. split; [congruence|]. split; [congruence|]. split; [congruence|]. split; [reflexivity|]. split; [congruence|].
        split.
        -- unfold taken in *. cbn [app]. rewrite flat_map_app, K7. cbn [flat_map app]. destruct (mget _ _) as [[? ?]|]; reflexivity.
        -- unfold accepted in *. cbn [app]. rewrite flat_map_app, K8. cbn [flat_map app]. destruct (mget _ _) as [[? ?]|]; reflexivity.
    + left. rewrite Sd in I. inversion I; subst. exists m. cbn [rd_done rd_conn rd_dropped rd_egress rd_cmds]. repeat split; congruence.
  - left. split; [discriminate|]. unfold rd_on_message in I. destruct (mget _ _) as [[st cc]|]; [destruct (try_decompress _ _ _)|]; inversion I; subst; cbn [rd_done rd_conn rd_dropped rd_egress rd_cmds]; repeat split; congruence.
Qed.

(*@prop C83 (request): in every history in which the application dropped the socket and the connection is up and stays healthy - the
    server may go on sending responses - the task ends after as many iterations as it has frames and calls left to send, and by
    then every waiting frame, and every call still in the channel, was handed to the connection, in this order. *)
Lemma C83_request_ends_pf :
  forall o co D evs s log es s' new,
  rd_run o co D rd_init evs = (s, log) -> In EDrop evs -> rd_conn s = RActive -> rd_done s = false ->
  Forall link_up es -> (length (rd_egress s) + 2 * length (rd_cmds s) + 1 <= quiet_iters es)%nat ->
  rd_run o co D s (map EIter es) = (s', new) ->
  rd_done s' = true /\ taken new = rd_egress s ++ map snd (accepted new) /\ map fst (accepted new) = map fst (rd_cmds s).
Proof.
  intros o co D evs s L es s' new R Dr Co Dn Up Le R2.
  assert (Hd : rd_dropped s = true).
  { clear - R Dr. assert (K : forall evs s s' L, rd_run o co D s evs = (s', L) -> rd_dropped s = true \/ In EDrop evs -> rd_dropped s' = true).
    { clear. induction evs as [|ev evs IH]; intros s s' L R [H|H]; cbn [rd_run] in R.
      - inversion R; subst. exact H.
      - destruct H.
      - destruct (rd_step o co D s ev) as [s1 o1] eqn:St. destruct (rd_run o co D s1 evs) as [s2 o2] eqn:R2. inversion R; subst. eapply IH; [exact R2|]. left. apply (step_dropped _ _ _ _ _ _ _ St). exact H.
      - destruct (rd_step o co D s ev) as [s1 o1] eqn:St. destruct (rd_run o co D s1 evs) as [s2 o2] eqn:R2. inversion R; subst. eapply IH; [exact R2|]. destruct H as [->|H]; [left|right; exact H]. cbn in St. inversion St; reflexivity. }
    eapply K; eauto. }
  clear R Dr evs L. revert s s' new Co Dn Hd Le R2. induction Up as [|e es Ue Up IH]; intros s s' new Co Dn Hd Le R2; [cbn in Le; lia|].
  cbn [map rd_run rd_step] in R2. rewrite Dn in R2. destruct (rd_iter o co D e s) as [[s1 o1] c] eqn:It. destruct (rd_run o co D s1 (map EIter es)) as [s2 o2] eqn:R3. inversion R2; subst s' new. clear R2.
  unfold taken, accepted in *. rewrite !flat_map_app.
  destruct (up_iter o co D e s s1 o1 c Ue Dn Co Hd It) as [(Nx & D1 & C1 & H1 & E1 & M1 & T1 & A1)|(Nx & [(m & D1 & C1 & H1 & E1 & M1 & T1 & A1)|[(x & p & m & D1 & C1 & H1 & E0 & E1 & M1 & T1 & A1)|(D1 & E1 & M1 & T1 & A1)]])]; unfold taken, accepted in T1, A1; rewrite T1, A1.
  - destruct (IH s1 s2 o2 C1 D1 H1) as (I1 & I2 & I3); [|exact R3|].
    + rewrite E1, M1. unfold quiet_iters in *. cbn [filter] in Le. destruct (e_next e); try exact Le. congruence.
    + rewrite E1 in I2. rewrite M1 in I3. cbn [app]. auto.
  - destruct (IH s1 s2 o2 C1 D1 H1) as (I1 & I2 & I3); [|exact R3|].
    + rewrite M1. unfold quiet_iters in *. cbn [filter] in Le. rewrite Nx, E1 in Le. cbn [length] in Le. lia.
    + rewrite M1 in I3. split; [exact I1|]. split; [|exact I3]. rewrite E1. cbn [app]. rewrite I2. reflexivity.
  - destruct (IH s1 s2 o2 C1 D1 H1) as (I1 & I2 & I3); [|exact R3|].
    + unfold quiet_iters in *. cbn [filter] in Le. rewrite Nx, M1 in Le. rewrite E1. cbn [length] in *. lia.
    + rewrite E1 in I2. rewrite E0, M1. cbn [app map fst snd] in *. rewrite I2, I3. auto.
  - assert (Z : forall es s, rd_done s = true -> rd_run o co D s (map EIter es) = (s, [])).
    { clear. induction es as [|e es IH]; intros s Dn; [reflexivity|]. cbn [map rd_run rd_step]. rewrite Dn. rewrite (IH s Dn). reflexivity. }
    rewrite (Z _ _ D1) in R3. inversion R3; subst. cbn [flat_map app map]. rewrite E1, M1. auto.
Qed.

Definition drop_of (s : rd) : rd := mkRd (rd_id s) (rd_cmds s) true (rd_task s) (rd_conn s) (rd_egress s) (rd_pending s) (rd_flush s) (rd_tx s) (rd_rx s) (rd_rtts s) (rd_done s).
Lemma inactive_iter o co D e s s' os c : e_task e <> Some true -> (exists b, rd_conn s = RInactive b) -> rd_iter o co D e s = (s', os, c) ->
  rd_iter o co D e (drop_of s) = (drop_of s', os, c) /\ (exists b, rd_conn s' = RInactive b).
Proof.
  intros T (b & Co) I. unfold rd_iter in *.
  assert (F : rd_do_flush o e s = s /\ rd_do_flush o e (drop_of s) = drop_of s).
  { unfold rd_do_flush. cbn [drop_of rd_flush rd_conn]. rewrite Co. destruct (rd_flush s), (ro_flush_interval o), (e_flush_tick e); auto. }
  destruct F as [F1 F2]. rewrite F1 in I. rewrite F2. clear F1 F2. unfold rd_do_task in *. cbn [drop_of rd_task].
  assert (K : forall s1, rd_conn s1 = RInactive b -> forall s' os c, rd_do_inactive e b s1 = (s', os, c) -> rd_do_inactive e b (drop_of s1) = (drop_of s', os, c) /\ exists b', rd_conn s' = RInactive b').
  { clear. intros s1 Co s' os c I. unfold rd_do_inactive in *. cbn [drop_of rd_task]. destruct (rd_task s1); destruct (bo_poll (e_now e) b) as [b' []]; cbn in I; inversion I; subst; cbn [rd_conn set_conn]; (split; [reflexivity|eauto]). }
  destruct (rd_task s) eqn:Ts; [destruct (e_task e) as [[|]|] eqn:Te; [congruence|..]|]; cbn [rd_conn set_conn] in I; rewrite Co in I;
    match type of I with context [rd_do_inactive e b ?z] => destruct (rd_do_inactive e b z) as [[s3 o3] c3] eqn:E3; destruct (K z) with (2 := E3) as [K1 K2]; [first [exact Co|reflexivity]|] end;
    inversion I; subst; cbn [drop_of rd_conn set_conn] in *; rewrite ?Co, ?Ts; (split; [|exact K2]).
  1: change (set_conn (drop_of s) false (RInactive b)) with (drop_of (set_conn s false (RInactive b))).
  all: rewrite K1; reflexivity.
Qed.

(*@prop C83 (request), refuted while the connection is down: until a new connection is up, the task behaves - whatever happens -
    exactly as if the socket had not been dropped: it goes on waiting and dialling the server.  The connection it finally
    makes is used to send the waiting frames only. *)
Lemma C83_request_disconnected_refuted_pf :
  (forall o co D s es s1 new1 s2 new2,
   (exists b, rd_conn s = RInactive b) -> Forall (fun e => e_task e <> Some true) es ->
   rd_run o co D s (EDrop :: map EIter es) = (s1, new1) -> rd_run o co D s (map EIter es) = (s2, new2) -> new1 = new2) /\
  (forall D, exists evs1 evs2 s1 s2 log1 log2,
   rd_run ex_opts None D rd_init evs1 = (s1, log1) /\ In EDrop evs1 /\ rd_run ex_opts None D s1 evs2 = (s2, log2) /\
   attempts log2 = 2%nat /\ rd_done s2 = false).
Proof.
  split.
  - intros o co D s es s1 new1 s2 new2 Co F R1 R2. cbn [rd_run rd_step] in R1.
    change (mkRd (rd_id s) (rd_cmds s) true (rd_task s) (rd_conn s) (rd_egress s) (rd_pending s) (rd_flush s) (rd_tx s) (rd_rx s) (rd_rtts s) (rd_done s)) with (drop_of s) in R1.
    destruct (rd_run o co D (drop_of s) (map EIter es)) as [sx ox] eqn:R. injection R1 as <- <-. cbn [app]. revert s s2 new2 sx ox Co R R2.
    induction F as [|e es T F IH]; intros s s2 new2 sx ox Co R R2; cbn [map rd_run rd_step] in R, R2; [congruence|]. cbn [drop_of rd_done] in R. fold (drop_of s) in R.
    destruct (rd_done s) eqn:Dn.
    + destruct (rd_run o co D s (map EIter es)) as [sa oa] eqn:Ra. destruct (rd_run o co D (drop_of s) (map EIter es)) as [sb ob] eqn:Rb. inversion R; inversion R2; subst. cbn [app]. eapply IH; eauto.
    + destruct (rd_iter o co D e s) as [[s3 o3] c] eqn:It. destruct (inactive_iter _ _ _ _ _ _ _ _ T Co It) as [It' Co']. rewrite It' in R.
      destruct (rd_run o co D s3 (map EIter es)) as [sa oa] eqn:Ra. destruct (rd_run o co D (drop_of s3) (map EIter es)) as [sb ob] eqn:Rb. inversion R; inversion R2; subst. f_equal. eapply IH; eauto.
  - intros D. exists [EIter (ex_env 0); EDrop], [EIter (ex_env (20 * ms)); EIter (ex_conn (21 * ms) false); EIter (ex_env (60 * ms))]. do 4 eexists.
    split; [vm_compute; reflexivity|]. split; [cbn; auto|]. split; [vm_compute; reflexivity|]. split; reflexivity.
Qed.

(*@example Two calls are waiting when the socket is dropped; one response comes in meanwhile. *)
Lemma C83_request_example_pf :
  forall D, let r := rd_run ex_opts None D rd_init ([EIter (ex_env 0); EIter (ex_env (20 * ms)); EReq 7 [x68; x69]; EReq 8 [x79; x6f]; EIter (ex_conn (21 * ms) true); EDrop]) in
  let es := [ex_env (22 * ms); ex_resp 3 [x00]; ex_env (22 * ms); ex_env (22 * ms); ex_env (22 * ms)] in
  let q := rd_run ex_opts None D (fst r) (map EIter es) in
  rd_conn (fst r) = RActive /\ rd_done (fst r) = false /\ Forall link_up es /\
  (length (rd_egress (fst r)) + 2 * length (rd_cmds (fst r)) + 1 <= quiet_iters es)%nat /\
  rd_done (fst q) = true /\ length (taken (snd q)) = 2%nat.
Proof.
  intros D. cbv zeta. split; [vm_compute; reflexivity|]. split; [vm_compute; reflexivity|]. split.
  - repeat match goal with |- Forall _ (_ :: _) => constructor | |- Forall _ [] => constructor | |- link_up _ => repeat split; first [now left|right; eexists; reflexivity] end.
  - split; [vm_compute; repeat constructor|]. split; vm_compute; reflexivity.
Qed.
