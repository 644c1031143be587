(** Invariants of the request driver. *)
From Coq Require Import Permutation.
From Verif Require Import Model.Base Model.Map Model.WireReqRep Model.Compression Model.Backoff Model.ReqDriver
  Spec.ReqSpec Proofs.MapP.
Local Open Scope N_scope.

Section P.
Variables (o : ropts) (co : option compressor) (D : decompressors).

(** The part of the state that the queues and callers depend on. *)
Definition core (s : rd) := (rd_id s, rd_cmds s, rd_egress s, rd_pending s, (rd_tx s, rd_rx s, rd_rtts s), (rd_dropped s, rd_done s)).
Definition silent (x : out) : bool := match x with StartConnect | Connected | ConnectFailed => true | _ => false end.

Inductive prim (e : env) : rd -> list out -> rd -> Prop :=
| pr_quiet (s s' : rd) (os : list out) : core s = core s' -> (forall x, In x os -> silent x = true) -> prim e s os s'
| pr_msg s m : e_next e = NxMsg m -> prim e s (snd (rd_on_message D (e_now e) s m)) (fst (rd_on_message D (e_now e) s m))
| pr_timeouts s : prim e s (snd (rd_check_timeouts o (e_now e) s)) (fst (rd_check_timeouts o (e_now e) s))
| pr_send s s' m q (ok : bool) : rd_egress s = m :: q ->
    core s' = (rd_id s, rd_cmds s, q, rd_pending s, (if ok then rd_tx s + rr_size m else rd_tx s, rd_rx s, rd_rtts s), (rd_dropped s, rd_done s)) ->
    prim e s [Handed m ok] s'
| pr_cmd s c p rest : rd_cmds s = (c, p) :: rest ->
    prim e s (snd (rd_on_command o co (e_now e) s rest c p)) (fst (rd_on_command o co (e_now e) s rest c p))
| pr_finish s : prim e s (snd (rd_finish s)) (fst (rd_finish s)).

Inductive prims (e : env) : rd -> list out -> rd -> Prop :=
| ps_nil s : prims e s [] s
| ps_cons s1 os1 s2 os2 s3 : prim e s1 os1 s2 -> prims e s2 os2 s3 -> prims e s1 (os1 ++ os2) s3.

Lemma prims_one e s os s' : prim e s os s' -> prims e s os s'.
Proof. intros H. rewrite <- (app_nil_r os). econstructor; [exact H|constructor]. Qed.
Lemma prims_app e s1 os1 s2 os2 s3 : prims e s1 os1 s2 -> prims e s2 os2 s3 -> prims e s1 (os1 ++ os2) s3.
Proof. intros H. revert os2 s3. induction H as [|s1 os1 s2 os1' s2' Hp Hs IH]; intros os2 s3 H2; [exact H2|].
  rewrite <- app_assoc. econstructor; [exact Hp|]. apply IH, H2. Qed.
Lemma prims_quiet e s os s' : core s = core s' -> (forall x, In x os -> silent x = true) -> prims e s os s'.
Proof. intros H1 H2. apply prims_one, pr_quiet; assumption. Qed.

Lemma ticks_prims e n : forall s, prims e s (snd (rd_ticks o n (e_now e) s)) (fst (rd_ticks o n (e_now e) s)).
Proof.
  induction n as [|n IH]; intros s; cbn [rd_ticks]; [constructor|].
  pose proof (pr_timeouts e s) as H. destruct (rd_check_timeouts o (e_now e) s) as [s1 o1]. cbn [fst snd] in H.
  specialize (IH s1). destruct (rd_ticks o n (e_now e) s1) as [s2 o2]. cbn [fst snd] in *. econstructor; eauto.
Qed.

Lemma finish_prims e s : prims e s (snd (rd_finish s)) (fst (rd_finish s)).
Proof. apply prims_one, pr_finish. Qed.

Lemma quiet_nil : forall x : out, In x [] -> silent x = true. Proof. intros x []. Qed.

Lemma iter_prims e s s' os c : rd_iter o co D e s = (s', os, c) -> prims e s os s'.
Proof.
  unfold rd_iter. destruct (rd_do_task e (rd_do_flush o e s)) as [s2 o2] eqn:T. intros H.
  assert (Hq : prims e s o2 s2).
  { assert (core (rd_do_flush o e s) = core s) as C.
    { unfold rd_do_flush. destruct (rd_flush s); [|reflexivity].
      destruct (match ro_flush_interval o with Some _ => e_flush_tick e | None => true end); [|reflexivity].
      destruct (rd_conn s); [|reflexivity]. destruct (e_flush_ok e); reflexivity. }
    unfold rd_do_task in T. destruct (rd_task (rd_do_flush o e s)).
    - destruct (e_task e) as [[|]|]; inversion T; subst; apply prims_quiet; try (cbn; rewrite <- C; reflexivity);
        intros x Hx; repeat destruct Hx as [<-|Hx]; try reflexivity; destruct Hx.
    - inversion T; subst. apply prims_quiet; [symmetry; exact C|apply quiet_nil]. }
  assert (Hfin : forall s3 s4 os4, prims e s o2 s3 -> rd_finish s3 = (s4, os4) -> prims e s (o2 ++ os4) s4).
  { intros s3 s4 os4 H3 F. eapply prims_app; [exact H3|]. pose proof (finish_prims e s3) as X. rewrite F in X. exact X. }
  destruct (rd_conn s2) as [|b] eqn:Cn.
  - (* active *)
    destruct (rd_do_active o co D e s2) as [[s3 o3] c3] eqn:A. inversion H; subst s3 os c3. clear H.
    unfold rd_do_active in A. destruct (e_next e) as [m| | |] eqn:Nx.
    + destruct (rd_on_message D (e_now e) s2 m) as [sx ox] eqn:M. inversion A; subst. eapply prims_app; [exact Hq|].
      pose proof (pr_msg e s2 m Nx) as X. rewrite M in X. apply prims_one, X.
    + inversion A; subst. rewrite app_nil_r. rewrite <- (app_nil_r o2). eapply prims_app; [exact Hq|].
      apply prims_quiet; [reflexivity|apply quiet_nil].
    + destruct (rd_finish s2) as [sx ox] eqn:F. inversion A; subst. eauto.
    + destruct (if e_ready e then rd_egress s2 else []) as [|m q] eqn:Q.
      * pose proof (ticks_prims e (e_ticks e) s2) as X. destruct (rd_ticks o (e_ticks e) (e_now e) s2) as [s1 o1].
        cbn [fst snd] in X. assert (Hq1 : prims e s (o2 ++ o1) s1) by (eapply prims_app; eauto).
        destruct (rd_do_command o co e s1) as [[sy oy] cy] eqn:Y. inversion A; subst. clear A.
        rewrite app_assoc. eapply prims_app; [exact Hq1|]. unfold rd_do_command in Y.
        destruct (e_recv e); [|inversion Y; subst; constructor].
        destruct (rd_cmds s1) as [|[cc p] rest] eqn:Cm.
        -- destruct (rd_dropped s1); [|inversion Y; subst; constructor].
           destruct (e_close e); [|inversion Y; subst; constructor].
           pose proof (finish_prims e s1) as F. destruct (rd_finish s1). inversion Y; subst. exact F.
        -- pose proof (pr_cmd e s1 cc p rest Cm) as F. destruct (rd_on_command o co (e_now e) s1 rest cc p).
           inversion Y; subst. apply prims_one, F.
      * assert (Eq : rd_egress s2 = m :: q) by (destruct (e_ready e); [exact Q|discriminate]).
        destruct (e_send e); inversion A; subst; (eapply prims_app; [exact Hq|]); apply prims_one.
        -- apply (pr_send e s2 _ m q true); [exact Eq|reflexivity].
        -- apply (pr_send e s2 _ m q false); [exact Eq|reflexivity].
  - destruct (rd_do_inactive e b s2) as [[s3 o3] c3] eqn:A. inversion H; subst s3 os c3. clear H.
    unfold rd_do_inactive in A. destruct (bo_poll (e_now e) b) as [b' [d| | |]].
    + destruct (rd_task s2) eqn:Tk; inversion A; subst; (eapply prims_app; [exact Hq|]); apply prims_quiet; try reflexivity.
      * intros x [].
      * intros x [<-|[]]. reflexivity.
    + destruct (rd_finish (set_conn s2 (rd_task s2) (RInactive b'))) as [sx ox] eqn:F. inversion A; subst. eapply Hfin; [|exact F].
      rewrite <- (app_nil_r o2). eapply prims_app; [exact Hq|]. apply prims_quiet; [reflexivity|apply quiet_nil].
    + inversion A; subst. eapply prims_app; [exact Hq|]. apply prims_quiet; [reflexivity|apply quiet_nil].
    + destruct (rd_finish s2) as [sx ox] eqn:F. inversion A; subst. eauto.
Qed.

(** Histories, last event last. *)
Lemma run_app evs1 : forall evs2 s, rd_run o co D s (evs1 ++ evs2) =
  let (s1, o1) := rd_run o co D s evs1 in let (s2, o2) := rd_run o co D s1 evs2 in (s2, o1 ++ o2).
Proof.
  induction evs1 as [|ev evs1 IH]; intros evs2 s; cbn [app rd_run].
  - destruct (rd_run o co D s evs2); reflexivity.
  - destruct (rd_step o co D s ev) as [s1 o1]. rewrite IH. destruct (rd_run o co D s1 evs1) as [s2 o2].
    destruct (rd_run o co D s2 evs2) as [s3 o3]. rewrite app_assoc. reflexivity.
Qed.
Lemma run_snoc evs ev s : rd_run o co D s (evs ++ [ev]) =
  let (s1, o1) := rd_run o co D s evs in let (s2, o2) := rd_step o co D s1 ev in (s2, o1 ++ o2).
Proof. rewrite run_app. destruct (rd_run o co D s evs) as [s1 o1]. cbn [rd_run]. destruct (rd_step o co D s1 ev) as [s2 o2].
  rewrite app_nil_r. reflexivity. Qed.

(** * Accounting of calls *)
Definition calls (s : rd) : list N := map fst (rd_cmds s) ++ map (fun p => snd (snd p)) (rd_pending s).
Definition acct (s : rd) (os : list out) (s' : rd) : Prop := Permutation (calls s) (resolved os ++ calls s').

Lemma resolved_app a b : resolved (a ++ b) = resolved a ++ resolved b.
Proof. unfold resolved. rewrite flat_map_app. reflexivity. Qed.
Lemma accepted_app a b : accepted (a ++ b) = accepted a ++ accepted b.
Proof. unfold accepted. rewrite flat_map_app. reflexivity. Qed.
Lemma handed_app a b : handed (a ++ b) = handed a ++ handed b.
Proof. unfold handed. rewrite flat_map_app. reflexivity. Qed.
Lemma taken_app a b : taken (a ++ b) = taken a ++ taken b.
Proof. unfold taken. rewrite flat_map_app. reflexivity. Qed.
Lemma issued_app a b : issued (a ++ b) = issued a ++ issued b.
Proof. unfold issued. rewrite flat_map_app. reflexivity. Qed.

Lemma silent_resolved os : (forall x, In x os -> silent x = true) -> resolved os = [].
Proof. induction os as [|x os IH]; intros H; [reflexivity|]. cbn. pose proof (H x (or_introl eq_refl)).
  destruct x; try discriminate; apply IH; intros y Hy; apply H; right; exact Hy. Qed.
Lemma silent_accepted os : (forall x, In x os -> silent x = true) -> accepted os = [].
Proof. induction os as [|x os IH]; intros H; [reflexivity|]. cbn. pose proof (H x (or_introl eq_refl)).
  destruct x; try discriminate; apply IH; intros y Hy; apply H; right; exact Hy. Qed.
Lemma silent_handed os : (forall x, In x os -> silent x = true) -> handed os = [].
Proof. induction os as [|x os IH]; intros H; [reflexivity|]. cbn. pose proof (H x (or_introl eq_refl)).
  destruct x; try discriminate; apply IH; intros y Hy; apply H; right; exact Hy. Qed.
Lemma silent_taken os : (forall x, In x os -> silent x = true) -> taken os = [].
Proof. induction os as [|x os IH]; intros H; [reflexivity|]. cbn. pose proof (H x (or_introl eq_refl)).
  destruct x as [| | ? []| | | |]; try discriminate; apply IH; intros y Hy; apply H; right; exact Hy. Qed.

Lemma in_resolved c l : In c (resolved l) <-> exists r, In (Resolve c r) l.
Proof.
  unfold resolved. rewrite in_flat_map. split.
  - intros (x & Hx & Hc). destruct x; cbn in Hc; try destruct Hc as [<-|[]]; try destruct Hc. eauto.
  - intros (r & H). exists (Resolve c r). split; [exact H|left; reflexivity].
Qed.
Lemma unresolved_iff c l : unresolved l c <-> ~ In c (resolved l).
Proof using.
  rewrite in_resolved. unfold unresolved. split; [intros H (r & X); exact (H r X)|intros H r X; apply H; exists r; exact X].
Qed.

Lemma del_split (id : N) v (p : list (N * (N * N))) : NoDup (mkeys p) -> mget id p = Some v ->
  Permutation (map (fun e => snd (snd e)) p) (snd v :: map (fun e => snd (snd e)) (mdel id p)).
Proof.
  induction p as [|[k w] p IH]; cbn; [discriminate|]. intros ND; inversion ND as [|? ? Hni ND']; subst.
  destruct (eq_dec id k) as [->|Ne].
  - intros H; inversion H; subst. rewrite length_del_none; [apply Permutation_refl|]. apply mget_not_keys. exact Hni.
  - intros H. cbn. rewrite (IH ND' H). apply perm_swap.
Qed.
Lemma set_split (id : N) v (p : list (N * (N * N))) : NoDup (mkeys p) ->
  Permutation (snd v :: map (fun e => snd (snd e)) p)
    (match mget id p with Some w => [snd w] | None => [] end ++ map (fun e => snd (snd e)) (mset id v p)).
Proof.
  induction p as [|[k w] p IH]; cbn; [intros; apply Permutation_refl|]. intros ND; inversion ND as [|? ? Hni ND']; subst.
  destruct (eq_dec id k) as [->|Ne].
  - cbn. apply perm_swap.
  - cbn. rewrite perm_swap, (IH ND'). destruct (mget id p); cbn; [apply perm_swap|apply Permutation_refl].
Qed.

Lemma timeouts_acct ids : forall p, NoDup (mkeys p) ->
  let r := remove_timed_out ids p in
  Permutation (map (fun e => snd (snd e)) p) (resolved (snd r) ++ map (fun e => snd (snd e)) (fst r)) /\ NoDup (mkeys (fst r)).
Proof.
  induction ids as [|id ids IH]; intros p ND; cbn [remove_timed_out]; [split; [apply Permutation_refl|exact ND]|].
  destruct (mget id p) as [[st c]|] eqn:G; [|apply IH, ND].
  pose proof (IH (mdel id p) (nodup_del id p ND)) as X. destruct (remove_timed_out ids (mdel id p)) as [p' os].
  cbn [fst snd] in *. destruct X as [X1 X2]. split; [|exact X2].
  rewrite (del_split id (st, c) p ND G). cbn. rewrite X1. apply Permutation_refl.
Qed.

Lemma core_fields s s' : core s = core s' ->
  rd_id s = rd_id s' /\ rd_cmds s = rd_cmds s' /\ rd_egress s = rd_egress s' /\ rd_pending s = rd_pending s' /\
  rd_tx s = rd_tx s' /\ rd_rx s = rd_rx s' /\ rd_rtts s = rd_rtts s' /\ rd_dropped s = rd_dropped s' /\ rd_done s = rd_done s'.
Proof. unfold core. intros H. inversion H. repeat split; assumption. Qed.

Lemma core_eq s a b c d t r u x y : core s = (a, b, c, d, (t, r, u), (x, y)) ->
  rd_id s = a /\ rd_cmds s = b /\ rd_egress s = c /\ rd_pending s = d /\ rd_tx s = t /\ rd_rx s = r /\ rd_rtts s = u /\
  rd_dropped s = x /\ rd_done s = y.
Proof. unfold core. intros H. inversion H. repeat split; reflexivity. Qed.

Definition keys_ok (s : rd) : Prop := NoDup (mkeys (rd_pending s)).

Lemma prim_acct e s os s' : prim e s os s' -> keys_ok s -> acct s os s' /\ keys_ok s'.
Proof.
  unfold acct, keys_ok, calls. intros H K. destruct H as [s s' os Hc Hs|s m Hn|s|s s' m q ok Hq Hc|s c p rest Hc|s].
  - apply core_fields in Hc. destruct Hc as (_ & -> & _ & <- & _). rewrite silent_resolved by assumption. split; [apply Permutation_refl|exact K].
  - unfold rd_on_message. destruct (mget (rr_id m) (rd_pending s)) as [[st c]|] eqn:G.
    + destruct (try_decompress D (rr_ctype m) (rr_payload m)); cbn; (split; [|apply nodup_del; assumption]);
        rewrite (del_split _ _ _ K G); symmetry; apply Permutation_middle.
    + cbn. split; [apply Permutation_refl|exact K].
  - unfold rd_check_timeouts. pose proof (timeouts_acct (timed_out_ids o (e_now e) (rd_pending s)) (rd_pending s) K) as X.
    destruct (remove_timed_out _ _) as [p' os]. cbn [fst snd] in *. destruct X as [X1 X2]. cbn [rd_pending rd_cmds]. split; [|exact X2].
    change (resolved (CheckedTimeouts (e_now e) :: os)) with (resolved os). rewrite X1.
    rewrite !app_assoc. apply Permutation_app_tail, Permutation_app_comm.
  - apply core_eq in Hc. destruct Hc as (_ & E1 & _ & E2 & _). cbn. rewrite E1, E2. split; [apply Permutation_refl|exact K].
  - unfold rd_on_command. rewrite Hc. cbn [fst snd rd_cmds rd_pending map]. set (m := req_into_wire _ _). split; [|apply nodup_set; exact K].
    pose proof (set_split (rr_id m) (e_now e, c) (rd_pending s) K) as X. cbn [snd] in X.
    assert (R : resolved (Accept (e_now e) c m :: match mget (rr_id m) (rd_pending s) with Some (_, c') => [Resolve c' OClosed] | None => [] end)
            = match mget (rr_id m) (rd_pending s) with Some w => [snd w] | None => [] end).
    { clear. destruct (mget (rr_id m) (rd_pending s)) as [[? ?]|]; reflexivity. }
    rewrite R. cbn [app]. rewrite Permutation_middle, X.
    rewrite !app_assoc. apply Permutation_app_tail, Permutation_app_comm.
  - unfold rd_finish. cbn [fst snd rd_cmds rd_pending]. split; [|constructor].
    rewrite resolved_app, app_nil_r.
    assert (R1 : forall l : list (N * (N * N)), resolved (map (fun p => Resolve (snd (snd p)) OClosed) l) = map (fun e => snd (snd e)) l)
      by (induction l as [|x l IH]; cbn; [reflexivity|f_equal; exact IH]).
    assert (R2 : forall l : list (N * bytes), resolved (map (fun p => Resolve (fst p) OClosed) l) = map fst l)
      by (induction l as [|x l IH]; cbn; [reflexivity|f_equal; exact IH]).
    rewrite R1, R2. apply Permutation_app_comm.
Qed.

Lemma prims_acct e s os s' : prims e s os s' -> keys_ok s -> acct s os s' /\ keys_ok s'.
Proof.
  intros H. induction H as [s|s1 os1 s2 os2 s3 Hp Hs IH]; intros K.
  - split; [apply Permutation_refl|exact K].
  - destruct (prim_acct _ _ _ _ Hp K) as [A1 K1]. destruct (IH K1) as [A2 K2]. split; [|exact K2].
    unfold acct in *. rewrite resolved_app, <- app_assoc, A1, A2. apply Permutation_refl.
Qed.

Lemma prim_done e s os s' : prim e s os s' -> rd_done s' = true -> rd_done s = false -> calls s' = [].
Proof.
  intros H Hd Hn. destruct H as [s s' os Hc Hs|s m Hx|s|s s' m q ok Hq Hc|s c p rest Hc|s].
  - apply core_fields in Hc. destruct Hc as (_ & _ & _ & _ & _ & _ & _ & _ & X). congruence.
  - unfold rd_on_message in Hd. destruct (mget (rr_id m) (rd_pending s)) as [[? ?]|]; [destruct (try_decompress D (rr_ctype m) (rr_payload m))|]; cbn in Hd; congruence.
  - unfold rd_check_timeouts in Hd. destruct (remove_timed_out _ _). cbn in Hd. congruence.
  - apply core_eq in Hc. destruct Hc as (_ & _ & _ & _ & _ & _ & _ & _ & E). congruence.
  - cbn in Hd. congruence.
  - reflexivity.
Qed.

(** after the end nothing is left *)
Definition done_ok (s : rd) : Prop := rd_done s = true -> calls s = [].

(** After [rd_finish] nothing else happens in an iteration: needed only as: the calls stay empty. *)
Lemma prim_done_ok e s os s' : prim e s os s' -> done_ok s -> rd_cmds s = [] \/ rd_done s = false -> done_ok s'.
Proof.
  intros H Hk Hc Hd. destruct (rd_done s) eqn:E.
  2: { eapply prim_done; eauto. }
  specialize (Hk E). unfold calls in *. apply app_eq_nil in Hk. destruct Hk as [H1 H2].
  apply map_eq_nil in H1, H2. destruct H as [s s' os Hcc Hs|s m Hx|s|s s' m q ok Hq Hcc|s c p rest Hcc|s].
  - apply core_fields in Hcc. destruct Hcc as (_ & C1 & _ & C2 & _). rewrite <- C1, <- C2, H1, H2. reflexivity.
  - unfold rd_on_message. rewrite H2. cbn. rewrite H1, H2. reflexivity.
  - unfold rd_check_timeouts. rewrite H2. cbn. rewrite H1. reflexivity.
  - apply core_eq in Hcc. destruct Hcc as (_ & E1 & _ & E2 & _). rewrite E1, E2, H1, H2. reflexivity.
  - rewrite Hcc in H1. discriminate.
  - reflexivity.
Qed.

Lemma prims_done_ok e s os s' : prims e s os s' -> done_ok s -> done_ok s'.
Proof.
  intros H. induction H as [s|s1 os1 s2 os2 s3 Hp Hs IH]; intros K; [exact K|].
  apply IH. eapply prim_done_ok; eauto. destruct (rd_done s1) eqn:E; [left|right; reflexivity].
  specialize (K E). unfold calls in K. apply app_eq_nil in K. destruct K as [K _]. apply map_eq_nil in K. exact K.
Qed.

Lemma step_iter s e s' os : rd_step o co D s (EIter e) = (s', os) ->
  (rd_done s = true /\ s' = s /\ os = []) \/ (rd_done s = false /\ prims e s os s').
Proof.
  cbn. destruct (rd_done s); [intros H; inversion H; auto|].
  destruct (rd_iter o co D e s) as [[sx ox] c] eqn:I. intros H; inversion H; subst. right. split; [reflexivity|]. eapply iter_prims; eauto.
Qed.

Lemma run_acct evs s L : rd_run o co D rd_init evs = (s, L) ->
  Permutation (map fst (issued evs)) (resolved L ++ calls s) /\ keys_ok s /\ done_ok s.
Proof.
  revert s L. induction evs as [|ev evs IH] using rev_ind; intros s L H.
  - inversion H; subst. split; [apply Permutation_refl|]. split; [constructor|intros X; discriminate].
  - rewrite run_snoc in H. destruct (rd_run o co D rd_init evs) as [s1 o1]. destruct (IH s1 o1 eq_refl) as (P1 & K1 & D1).
    destruct (rd_step o co D s1 ev) as [s2 o2] eqn:St. inversion H; subst s2 L. clear H.
    rewrite issued_app, map_app, resolved_app. destruct ev as [c p| |e].
    + cbn in St. destruct (rd_done s1 || rd_dropped s1) eqn:B.
      * inversion St; subst. cbn. split; [|split; assumption]. rewrite P1. rewrite <- !app_assoc.
        apply Permutation_app_head, Permutation_app_comm.
      * inversion St; subst. cbn. rewrite app_nil_r. split; [|split; [exact K1|]].
        -- rewrite P1. unfold calls. cbn. rewrite map_app. cbn. rewrite <- !app_assoc. do 2 apply Permutation_app_head.
           apply Permutation_app_comm.
        -- intros X. cbn in X. rewrite X in B. discriminate.
    + inversion St; subst. cbn. rewrite !app_nil_r. split; [exact P1|]. split; [exact K1|exact D1].
    + apply step_iter in St. cbn. rewrite app_nil_r. destruct St as [(Hd & -> & ->)|[Hn Hp]].
      * cbn. rewrite app_nil_r. auto.
      * destruct (prims_acct _ _ _ _ Hp K1) as [A K]. split; [|split; [exact K|eapply prims_done_ok; eauto]].
        rewrite <- app_assoc, P1. apply Permutation_app_head. exact A.
Qed.

(** * Pending entries and accepted frames *)
Definition last_accept (L : list out) (id t c : N) : Prop :=
  exists L1 m L2, L = L1 ++ Accept t c m :: L2 /\ rr_id m = id /\
    forall t' c' m', In (Accept t' c' m') L2 -> rr_id m' <> id.

Definition pend_sound (L : list out) (s : rd) : Prop :=
  forall id t c, mget id (rd_pending s) = Some (t, c) -> last_accept L id t c.
Definition pend_complete (L : list out) (s : rd) : Prop :=
  forall t c m, In (Accept t c m) L -> unresolved L c -> mget (rr_id m) (rd_pending s) = Some (t, c).

Definition no_accept (os : list out) : Prop := forall t c m, ~ In (Accept t c m) os.

Lemma last_accept_app L id t c os : no_accept os -> last_accept L id t c -> last_accept (L ++ os) id t c.
Proof. intros N (L1 & m & L2 & -> & Hid & Hl). exists L1, m, (L2 ++ os). split; [rewrite <- app_assoc; reflexivity|]. split; [exact Hid|].
  intros t' c' m' H. apply in_app_or in H. destruct H as [H|H]; [eapply Hl; eauto|exfalso; eapply N; eauto]. Qed.

Lemma unresolved_app L os c : unresolved (L ++ os) c <-> unresolved L c /\ unresolved os c.
Proof. rewrite !unresolved_iff, resolved_app, in_app_iff. tauto. Qed.

Lemma sub_pend L s s' os : no_accept os ->
  (forall id v, mget id (rd_pending s') = Some v -> mget id (rd_pending s) = Some v) ->
  (forall id t c, mget id (rd_pending s) = Some (t, c) -> unresolved os c -> mget id (rd_pending s') = Some (t, c)) ->
  pend_sound L s -> pend_complete L s -> pend_sound (L ++ os) s' /\ pend_complete (L ++ os) s'.
Proof.
  intros N H1 H2 S C. split.
  - intros id t c G. apply last_accept_app; [exact N|]. apply S, H1, G.
  - intros t c m Hin Hu. apply unresolved_app in Hu. destruct Hu as [U1 U2]. apply in_app_or in Hin.
    destruct Hin as [Hin|Hin]; [|exfalso; eapply N; eauto]. apply H2; auto.
Qed.

Lemma timed_out_pend ids : forall p, let r := remove_timed_out ids p in
  no_accept (snd r) /\
  (forall id, mget id (fst r) = if in_dec N.eq_dec id ids then None else mget id p) /\
  (forall c oc, In (Resolve c oc) (snd r) <-> oc = OTimeout /\ exists id t, In id ids /\ mget id p = Some (t, c)).
Proof.
  induction ids as [|i ids IH]; intros p; cbn [remove_timed_out].
  - cbn. split; [intros ? ? ? []|]. split; [reflexivity|]. intros c oc. split; [intros []|intros (_ & id & t & [] & _)].
  - destruct (mget i p) as [[t c]|] eqn:G.
    + specialize (IH (mdel i p)). destruct (remove_timed_out ids (mdel i p)) as [p' os]. cbn [fst snd] in *.
      destruct IH as (I1 & I2 & I3). split; [intros ? ? ? [X|X]; [discriminate|eapply I1; eauto]|]. split.
      * intros id. rewrite I2, mget_del. destruct (in_dec N.eq_dec id ids) as [Hi|Hi].
        -- destruct (in_dec N.eq_dec id (i :: ids)) as [|X]; [reflexivity|exfalso; apply X; right; exact Hi].
        -- destruct (eq_dec id i) as [->|Ne].
           ++ destruct (in_dec N.eq_dec i (i :: ids)) as [|X]; [reflexivity|exfalso; apply X; left; reflexivity].
           ++ destruct (in_dec N.eq_dec id (i :: ids)) as [[X|X]|_]; [congruence|contradiction|reflexivity].
      * intros c0 oc. cbn [In]. rewrite I3. split.
        -- intros [X|(-> & id & t0 & Hi & Hg)].
           ++ inversion X; subst. split; [reflexivity|]. exists i, t. auto.
           ++ split; [reflexivity|]. exists id, t0. rewrite mget_del in Hg. destruct (eq_dec id i); [discriminate|auto].
        -- intros (-> & id & t0 & [->|Hi] & Hg).
           ++ rewrite G in Hg. inversion Hg; subst. left; reflexivity.
           ++ destruct (N.eq_dec id i) as [->|Ne]; [rewrite G in Hg; inversion Hg; subst; left; reflexivity|].
              right. split; [reflexivity|]. exists id, t0. split; [exact Hi|]. rewrite mget_del.
              destruct (eq_dec id i); [contradiction|exact Hg].
    + specialize (IH p). destruct (remove_timed_out ids p) as [p' os]. cbn [fst snd] in *.
      destruct IH as (I1 & I2 & I3). split; [exact I1|]. split.
      * intros id. rewrite I2. destruct (in_dec N.eq_dec id ids) as [Hi|Hi], (in_dec N.eq_dec id (i :: ids)) as [X|X]; try reflexivity.
        -- exfalso; apply X; right; exact Hi.
        -- destruct X as [->|X]; [exact G|contradiction].
      * intros c0 oc. rewrite I3. split.
        -- intros (-> & id & t0 & Hi & Hg). split; [reflexivity|]. exists id, t0. split; [right; exact Hi|exact Hg].
        -- intros (-> & id & t0 & [->|Hi] & Hg); [congruence|]. split; [reflexivity|]. exists id, t0. auto.
Qed.

Lemma in_timed_out now p id : NoDup (mkeys p) ->
  In id (timed_out_ids o now p) <-> exists t c, mget id p = Some (t, c) /\ ro_timeout o < now - t.
Proof.
  intros ND. unfold timed_out_ids. rewrite in_map_iff. split.
  - intros ([k [t c]] & <- & H). apply filter_In in H. destruct H as [H1 H2]. cbn in *. apply N.ltb_lt in H2.
    exists t, c. split; [apply in_mget; assumption|exact H2].
  - intros (t & c & G & H). exists (id, (t, c)). split; [reflexivity|]. apply filter_In. split; [apply mget_in, G|].
    cbn. apply N.ltb_lt, H.
Qed.

Lemma prim_pend e s os s' L : prim e s os s' -> keys_ok s -> pend_sound L s -> pend_complete L s ->
  pend_sound (L ++ os) s' /\ pend_complete (L ++ os) s'.
Proof.
  intros H K S C. destruct H as [s s' os Hc Hs|s m Hx|s|s s' m q ok Hq Hc|s c p rest Hc|s].
  - apply core_fields in Hc. destruct Hc as (_ & _ & _ & Hp & _).
    apply sub_pend with s; [|rewrite <- Hp; auto|rewrite <- Hp; auto|assumption|assumption]. intros t c m Hi. apply Hs in Hi. discriminate.
  - unfold rd_on_message. destruct (mget (rr_id m) (rd_pending s)) as [[t0 c0]|] eqn:G.
    2: { cbn. rewrite app_nil_r. auto. }
    assert (X : forall os p' oc, p' = mdel (rr_id m) (rd_pending s) -> os = [Resolve c0 oc] -> forall s1, rd_pending s1 = p' ->
      pend_sound (L ++ os) s1 /\ pend_complete (L ++ os) s1).
    { intros os p' oc -> -> s1 Hs1. apply sub_pend with s; [| | |assumption|assumption]; rewrite ?Hs1.
      - intros ? ? ? [X|[]]; discriminate.
      - intros id v Hg. rewrite mget_del in Hg. destruct (eq_dec id (rr_id m)); [discriminate|exact Hg].
      - intros id t c Hg Hu. rewrite mget_del. destruct (eq_dec id (rr_id m)) as [->|]; [|exact Hg].
        rewrite G in Hg. inversion Hg; subst. exfalso. apply (Hu oc). left; reflexivity. }
    destruct (try_decompress D (rr_ctype m) (rr_payload m)); cbn [fst snd]; eapply X; try reflexivity.
  - unfold rd_check_timeouts. pose proof (timed_out_pend (timed_out_ids o (e_now e) (rd_pending s)) (rd_pending s)) as X.
    destruct (remove_timed_out _ _) as [p' os]. cbn [fst snd] in *. destruct X as (X1 & X2 & X3).
    apply sub_pend with s; [| | |assumption|assumption]; cbn [rd_pending].
    + intros ? ? ? [X|X]; [discriminate|eapply X1; eauto].
    + intros id v Hg. rewrite X2 in Hg. destruct (in_dec N.eq_dec id _); [discriminate|exact Hg].
    + intros id t c Hg Hu. rewrite X2. destruct (in_dec N.eq_dec id _) as [Hi|]; [|exact Hg].
      exfalso. apply (Hu OTimeout). right. apply X3. split; [reflexivity|]. exists id, t. auto.
  - apply core_eq in Hc. destruct Hc as (_ & _ & _ & E2 & _). apply sub_pend with s; [|rewrite E2; auto|rewrite E2; auto|assumption|assumption].
    intros ? ? ? [X|[]]; discriminate.
  - unfold rd_on_command. set (m := req_into_wire _ _). cbn [fst snd]. split.
    + intros id t c' G. cbn [rd_pending] in G. rewrite mget_set in G. destruct (eq_dec id (rr_id m)) as [->|Ne].
      * inversion G; subst. eexists L, m, _. split; [reflexivity|]. split; [reflexivity|].
        intros t' c2 m' Hi. destruct (mget (rr_id m) (rd_pending s)) as [[? ?]|]; [destruct Hi as [X|[]]; discriminate|destruct Hi].
      * destruct (S id t c' G) as (L1 & m1 & L2 & -> & Hid & Hl). exists L1, m1. eexists. rewrite <- app_assoc. cbn [app]. split; [reflexivity|].
        split; [exact Hid|]. intros t' c2 m' Hi. apply in_app_or in Hi. destruct Hi as [Hi|[Hi|Hi]]; [eapply Hl; eauto| |].
        -- inversion Hi; subst m'. congruence.
        -- destruct (mget (rr_id m) (rd_pending s)) as [[? ?]|]; [destruct Hi as [X|[]]; discriminate|destruct Hi].
    + intros t c' m' Hi Hu. cbn [rd_pending]. apply unresolved_app in Hu. destruct Hu as [U1 U2]. rewrite mget_set.
      apply in_app_or in Hi. destruct Hi as [Hi|[Hi|Hi]].
      * specialize (C t c' m' Hi U1). destruct (eq_dec (rr_id m') (rr_id m)) as [Eq|]; [|exact C].
        rewrite Eq in C. exfalso. apply (U2 OClosed). right. rewrite C. left; reflexivity.
      * inversion Hi; subst. destruct (eq_dec (rr_id m) (rr_id m)); congruence.
      * destruct (mget (rr_id m) (rd_pending s)) as [[? ?]|]; [destruct Hi as [X|[]]; discriminate|destruct Hi].
  - unfold rd_finish. cbn [fst snd]. split; [intros id t c G; discriminate|].
    intros t c m Hi Hu. apply unresolved_app in Hu. destruct Hu as [U1 U2]. exfalso.
    apply in_app_or in Hi. destruct Hi as [Hi|Hi].
    + specialize (C t c m Hi U1). apply (U2 OClosed). apply in_or_app. left. apply mget_in in C.
      apply (in_map (fun p => Resolve (snd (snd p)) OClosed)) in C. exact C.
    + apply in_app_or in Hi. destruct Hi as [Hi|Hi]; apply in_map_iff in Hi; destruct Hi as (? & X & _); discriminate.
Qed.

Lemma prims_pend e s os s' : prims e s os s' -> forall L, keys_ok s -> pend_sound L s -> pend_complete L s ->
  pend_sound (L ++ os) s' /\ pend_complete (L ++ os) s'.
Proof.
  intros H. induction H as [s|s1 os1 s2 os2 s3 Hp Hs IH]; intros L K S C; [rewrite app_nil_r; auto|].
  destruct (prim_pend _ _ _ _ L Hp K S C) as [S' C']. destruct (prim_acct _ _ _ _ Hp K) as [_ K'].
  rewrite app_assoc. apply IH; assumption.
Qed.

Lemma run_pend evs s L : rd_run o co D rd_init evs = (s, L) -> pend_sound L s /\ pend_complete L s.
Proof.
  revert s L. induction evs as [|ev evs IH] using rev_ind; intros s L H.
  - inversion H; subst. split; [intros ? ? ?; cbn; discriminate|intros ? ? ? []].
  - rewrite run_snoc in H. destruct (rd_run o co D rd_init evs) as [s1 o1] eqn:R1. destruct (IH s1 o1 eq_refl) as (S & C).
    destruct (run_acct evs s1 o1 R1) as (_ & K & _).
    destruct (rd_step o co D s1 ev) as [s2 o2] eqn:St. inversion H; subst s2 L. clear H. destruct ev as [c p| |e].
    + cbn in St. destruct (rd_done s1 || rd_dropped s1).
      * inversion St; subst. apply sub_pend with s; auto. intros ? ? ? [X|[]]; discriminate.
      * inversion St; subst. apply sub_pend with s1; auto. intros ? ? ? [].
    + inversion St; subst. apply sub_pend with s1; auto. intros ? ? ? [].
    + apply step_iter in St. destruct St as [(Hd & -> & ->)|[Hn Hp]]; [rewrite app_nil_r; auto|].
      eapply prims_pend; eauto.
Qed.

(** Where a successful result comes from. *)
Lemma prim_ok e s os s' c x : prim e s os s' -> In (Resolve c (OOk x)) os ->
  exists m t, e_next e = NxMsg m /\ mget (rr_id m) (rd_pending s) = Some (t, c) /\
    try_decompress D (rr_ctype m) (rr_payload m) = Some x /\ os = [Resolve c (OOk x)].
Proof.
  intros H Hi. destruct H as [s s' os Hc Hs|s m Hx|s|s s' m q ok Hq Hc|s c' p rest Hc|s].
  - apply Hs in Hi. discriminate.
  - unfold rd_on_message in *. destruct (mget (rr_id m) (rd_pending s)) as [[t0 c0]|] eqn:G; [|destruct Hi].
    destruct (try_decompress D (rr_ctype m) (rr_payload m)) as [y|] eqn:T; cbn in Hi; destruct Hi as [Hi|[]]; inversion Hi; subst.
    exists m, t0. repeat split; auto.
  - unfold rd_check_timeouts in Hi. pose proof (timed_out_pend (timed_out_ids o (e_now e) (rd_pending s)) (rd_pending s)) as X.
    destruct (remove_timed_out _ _) as [p' os]. cbn [fst snd] in *. destruct X as (X1 & X2 & X3).
    destruct Hi as [Hi|Hi]; [discriminate|]. apply X3 in Hi. destruct Hi; discriminate.
  - destruct Hi as [Hi|[]]; discriminate.
  - cbn in Hi. destruct Hi as [Hi|Hi]; [discriminate|]. destruct (mget _ _) as [[? ?]|]; [destruct Hi as [Hi|[]]; discriminate|destruct Hi].
  - cbn in Hi. apply in_app_or in Hi. destruct Hi as [Hi|Hi]; apply in_map_iff in Hi; destruct Hi as (? & X & _); discriminate.
Qed.

Lemma app_cases {A} (l1 l2 pre post : list A) x : l1 ++ l2 = pre ++ x :: post ->
  (exists post', l1 = pre ++ x :: post' /\ post = post' ++ l2) \/ (exists pre', pre = l1 ++ pre' /\ l2 = pre' ++ x :: post).
Proof.
  revert pre. induction l1 as [|a l1 IH]; intros pre E; cbn in E.
  - right. exists pre. auto.
  - destruct pre as [|b pre]; cbn in E; inversion E; subst.
    + left. exists l1. auto.
    + destruct (IH pre H1) as [(post' & -> & ->)|(pre' & -> & ->)]; [left; exists post'; auto|right; exists pre'; auto].
Qed.

Lemma prims_ok e s os s' : prims e s os s' -> forall L, keys_ok s -> pend_sound L s -> pend_complete L s ->
  forall c x pre post, os = pre ++ Resolve c (OOk x) :: post ->
  exists m t, e_next e = NxMsg m /\ last_accept (L ++ pre) (rr_id m) t c /\ try_decompress D (rr_ctype m) (rr_payload m) = Some x.
Proof.
  intros H. induction H as [s|s1 os1 s2 os2 s3 Hp Hs IH]; intros L K S C c x pre post E; [destruct pre; discriminate|].
  destruct (prim_pend _ _ _ _ L Hp K S C) as [S' C']. destruct (prim_acct _ _ _ _ Hp K) as [_ K'].
  destruct (app_cases _ _ _ _ _ E) as [(post' & E1 & _)|(pre' & -> & E2)].
  - assert (Hin : In (Resolve c (OOk x)) os1) by (rewrite E1; apply in_or_app; right; left; reflexivity).
    destruct (prim_ok _ _ _ _ _ _ Hp Hin) as (m & t & Hn & G & T & Eos). exists m, t. split; [exact Hn|]. split; [|exact T].
    rewrite Eos in E1. destruct pre as [|? [|? ?]]; inversion E1. rewrite app_nil_r. apply S, G.
  - destruct (IH (L ++ os1) K' S' C' c x pre' post E2) as (m & t & Hn & La & T).
    exists m, t. split; [exact Hn|]. split; [|exact T]. rewrite app_assoc. exact La.
Qed.

Lemma run_ok_source evs s L : rd_run o co D rd_init evs = (s, L) -> forall c x pre post, L = pre ++ Resolve c (OOk x) :: post ->
  exists m t, response_seen evs m /\ last_accept pre (rr_id m) t c /\ try_decompress D (rr_ctype m) (rr_payload m) = Some x.
Proof.
  revert s L. induction evs as [|ev evs IH] using rev_ind; intros s L H c x pre post E.
  - inversion H; subst. destruct pre; discriminate.
  - rewrite run_snoc in H. destruct (rd_run o co D rd_init evs) as [s1 o1] eqn:R1.
    destruct (rd_step o co D s1 ev) as [s2 o2] eqn:St. assert (E' : o1 ++ o2 = pre ++ Resolve c (OOk x) :: post) by congruence. clear H E.
    assert (Hold : forall post', o1 = pre ++ Resolve c (OOk x) :: post' -> exists m t, response_seen (evs ++ [ev]) m /\
       last_accept pre (rr_id m) t c /\ try_decompress D (rr_ctype m) (rr_payload m) = Some x).
    { intros post' E1. destruct (IH s1 o1 eq_refl c x pre post' E1) as (m & t & (e & He & Hn) & X). exists m, t. split; [|exact X].
      exists e. split; [apply in_or_app; left; exact He|exact Hn]. }
    destruct (app_cases _ _ _ _ _ E') as [(post' & E1 & _)|(pre' & E1 & E2)]; [eapply Hold; eauto|].
    destruct ev as [c' p| |e].
    + cbn in St. destruct (rd_done s1 || rd_dropped s1); inversion St; subst o2; destruct pre' as [|? []]; discriminate.
    + inversion St; subst o2. destruct pre'; discriminate.
    + apply step_iter in St. destruct St as [(Hd & -> & ->)|[Hn Hp]]; [destruct pre'; discriminate|].
      destruct (run_acct evs s1 o1 R1) as (_ & K & _). destruct (run_pend evs s1 o1 R1) as [S C].
      destruct (prims_ok _ _ _ _ Hp o1 K S C c x pre' post E2) as (m & t & Hnx & La & T).
      exists m, t. split; [|split; [rewrite E1; exact La|exact T]]. exists e. split; [apply in_or_app; right; left; reflexivity|exact Hnx].
Qed.

(** * Order of frames *)
Definition frame_of (i : N) (p : bytes) : rr_msg := req_into_wire (i mod 2 ^ 32) (req_outgoing (ro_min_compress o) co p).

Fixpoint frames_from (i : N) (ps : list bytes) : list rr_msg :=
  match ps with [] => [] | p :: ps' => frame_of i p :: frames_from (i + 1) ps' end.

Lemma frames_app i ps qs : frames_from i (ps ++ qs) = frames_from i ps ++ frames_from (i + N.of_nat (length ps)) qs.
Proof. revert i. induction ps as [|p ps IH]; intros i; cbn [frames_from app length].
  - rewrite N.add_0_r. reflexivity.
  - cbn. rewrite IH. do 2 f_equal. f_equal. lia. Qed.

(** [acc]: calls accepted so far with their payloads. *)
Definition order_inv (acc : list (N * bytes)) (L : list out) (s : rd) : Prop :=
  map fst (accepted L) = map fst acc /\ map snd (accepted L) = frames_from 0 (map snd acc) /\
  handed L ++ rd_egress s = map snd (accepted L) /\ rd_id s = N.of_nat (length acc) mod 2 ^ 32.

Lemma accepted_silent_timeouts ids p : accepted (snd (remove_timed_out ids p)) = [] /\ handed (snd (remove_timed_out ids p)) = [] /\ taken (snd (remove_timed_out ids p)) = [].
Proof. revert p. induction ids as [|i ids IH]; intros p; cbn; [auto|]. destruct (mget i p) as [[? ?]|]; [|apply IH].
  specialize (IH (mdel i p)). destruct (remove_timed_out ids (mdel i p)). cbn in *. exact IH. Qed.

Lemma finish_silent s : accepted (snd (rd_finish s)) = [] /\ handed (snd (rd_finish s)) = [] /\ taken (snd (rd_finish s)) = [].
Proof.
  cbn. rewrite accepted_app, handed_app, taken_app.
  assert (forall A (f : A -> N) l, accepted (map (fun p => Resolve (f p) OClosed) l) = [] /\ handed (map (fun p => Resolve (f p) OClosed) l) = [] /\ taken (map (fun p => Resolve (f p) OClosed) l) = []) as X
    by (induction l as [|a l IH]; cbn; auto).
  destruct (X _ (fun p : N * (N * N) => snd (snd p)) (rd_pending s)) as (-> & -> & ->).
  destruct (X _ (fun p : N * bytes => fst p) (rd_cmds s)) as (-> & -> & ->). auto.
Qed.

Lemma prim_order e s os s' acc L : prim e s os s' -> order_inv acc L s ->
  exists acc', rd_cmds s' = skipn (length acc') (rd_cmds s) /\ acc' = firstn (length acc') (rd_cmds s) /\ order_inv (acc ++ acc') (L ++ os) s'
  \/ rd_done s' = true /\ rd_cmds s' = [] /\ acc' = [] /\ order_inv acc (L ++ os) s'.
Proof.
  intros H (O1 & O2 & O3 & O4).
  assert (Keep : forall os s', rd_cmds s' = rd_cmds s -> accepted os = [] -> handed os ++ rd_egress s' = rd_egress s -> rd_id s' = rd_id s ->
    exists acc', rd_cmds s' = skipn (length acc') (rd_cmds s) /\ acc' = firstn (length acc') (rd_cmds s) /\ order_inv (acc ++ acc') (L ++ os) s'
    \/ rd_done s' = true /\ rd_cmds s' = [] /\ acc' = [] /\ order_inv acc (L ++ os) s').
  { intros os1 s1 Hc Ha Hh Hi. exists []. left. split; [exact Hc|]. split; [reflexivity|].
    rewrite app_nil_r. unfold order_inv. rewrite accepted_app, Ha, app_nil_r, handed_app, <- app_assoc, Hh, Hi. repeat split; assumption. }
  destruct H as [s s' os Hc Hs|s m Hx|s|s s' m q ok Hq Hc|s c p rest Hc|s].
  - apply core_fields in Hc. destruct Hc as (C1 & C2 & C3 & C4 & _). apply Keep; auto using silent_accepted.
    rewrite silent_handed by assumption. symmetry; exact C3.
  - unfold rd_on_message. destruct (mget (rr_id m) (rd_pending s)) as [[? ?]|]; [destruct (try_decompress D (rr_ctype m) (rr_payload m))|]; apply Keep; reflexivity.
  - unfold rd_check_timeouts. pose proof (accepted_silent_timeouts (timed_out_ids o (e_now e) (rd_pending s)) (rd_pending s)) as X.
    destruct (remove_timed_out _ _). cbn [fst snd] in *. destruct X as (X1 & X2 & _). apply Keep; try reflexivity; cbn; auto.
    change (flat_map _ l0) with (handed l0). rewrite X2. reflexivity.
  - apply core_eq in Hc. destruct Hc as (E1 & E2 & E3 & E4 & _). apply Keep; auto. cbn. rewrite E3, Hq. reflexivity.
  - exists [(c, p)]. left. rewrite Hc. cbn [rd_on_command fst snd length skipn firstn]. split; [reflexivity|]. split; [reflexivity|].
    set (m := req_into_wire (rd_id s) _). set (tail := match mget _ _ with Some _ => _ | None => _ end).
    assert (T : accepted tail = [] /\ handed tail = []) by (unfold tail; destruct (mget _ _) as [[? ?]|]; auto).
    destruct T as [T1 T2].
    unfold order_inv. rewrite accepted_app, handed_app. change (Accept (e_now e) c m :: tail) with ([Accept (e_now e) c m] ++ tail).
    rewrite accepted_app, handed_app, T1, T2. cbn [accepted handed flat_map app rd_egress rd_id]. rewrite !app_nil_r, !map_app. cbn [map fst snd].
    repeat split.
    + rewrite O1. reflexivity.
    + rewrite O2, frames_app, map_length. cbn [frames_from]. unfold frame_of. rewrite N.add_0_l, <- O4. reflexivity.
    + rewrite app_assoc, O3. reflexivity.
    + rewrite app_length. cbn [length]. unfold wrapping_add32. rewrite O4. rewrite N.add_mod_idemp_l by discriminate. f_equal. lia.
  - exists []. right. split; [reflexivity|]. split; [reflexivity|]. split; [reflexivity|].
    destruct (finish_silent s) as (F1 & F2 & _). unfold order_inv. rewrite accepted_app, F1, app_nil_r, handed_app, F2, app_nil_r. repeat split; assumption.
Qed.

(** All issued calls = accepted, then still queued, then (after the end) rejected. *)
Definition order_run (evs : list req_event) (L : list out) (s : rd) : Prop :=
  exists acc rest, issued evs = acc ++ rd_cmds s ++ rest /\ order_inv acc L s /\
    (rd_done s = false -> rd_dropped s = false -> rest = []).

Lemma prims_order e s os s' : prims e s os s' -> forall acc L rest iss, iss = acc ++ rd_cmds s ++ rest -> order_inv acc L s ->
  (rd_done s = false -> rd_dropped s = false -> rest = []) ->
  exists acc' rest', iss = acc' ++ rd_cmds s' ++ rest' /\ order_inv acc' (L ++ os) s' /\ (rd_done s' = false -> rd_dropped s' = false -> rest' = []).
Proof.
  intros H. induction H as [s|s1 os1 s2 os2 s3 Hp Hs IH]; intros acc L rest iss E O R.
  - exists acc, rest. rewrite app_nil_r. auto.
  - assert (Hdd : rd_done s2 = false -> rd_done s1 = false /\ rd_dropped s2 = rd_dropped s1).
    { destruct Hp as [s s' os Hc Hs0|s m Hx|s|s s' m q ok Hq Hc|s c p rest' Hc|s].
      - apply core_fields in Hc. destruct Hc as (_ & _ & _ & _ & _ & _ & _ & -> & ->). auto.
      - unfold rd_on_message. destruct (mget (rr_id m) (rd_pending s)) as [[? ?]|]; [destruct (try_decompress D (rr_ctype m) (rr_payload m))|]; auto.
      - unfold rd_check_timeouts. destruct (remove_timed_out _ _). auto.
      - apply core_eq in Hc. destruct Hc as (_ & _ & _ & _ & _ & _ & _ & E1 & E2). rewrite E1, E2. auto.
      - cbn. auto.
      - cbn. discriminate. }
    destruct (prim_order _ _ _ _ acc L Hp O) as (acc' & [(C1 & C2 & O')|(Dn & C1 & -> & O')]).
    + rewrite app_assoc. apply IH with (acc := acc ++ acc') (rest := rest); [|exact O'|].
      * rewrite E, <- app_assoc. f_equal. rewrite app_assoc. f_equal. rewrite C1. rewrite <- (firstn_skipn (length acc') (rd_cmds s1)) at 1. f_equal. symmetry; exact C2.
      * intros H1 H2. destruct (Hdd H1) as [H3 H4]. apply R; congruence.
    + rewrite app_assoc. apply IH with (acc := acc) (rest := rd_cmds s1 ++ rest); [rewrite C1; exact E|exact O'|congruence].
Qed.

Lemma run_order evs s L : rd_run o co D rd_init evs = (s, L) -> order_run evs L s.
Proof.
  revert s L. induction evs as [|ev evs IH] using rev_ind; intros s L H.
  - inversion H; subst. exists [], []. repeat split.
  - rewrite run_snoc in H. destruct (rd_run o co D rd_init evs) as [s1 o1] eqn:R1. destruct (IH s1 o1 eq_refl) as (acc & rest & E & O & R).
    destruct (rd_step o co D s1 ev) as [s2 o2] eqn:St. inversion H; subst s2 L. clear H. unfold order_run. rewrite issued_app, E.
    destruct ev as [c p| |e].
    + cbn in St. destruct (rd_done s1 || rd_dropped s1) eqn:B; inversion St; subst.
      * exists acc, (rest ++ [(c, p)]). split; [rewrite <- !app_assoc; reflexivity|]. split.
        -- unfold order_inv in *. rewrite accepted_app, handed_app. cbn. rewrite !app_nil_r. exact O.
        -- intros X Y. rewrite X, Y in B. discriminate.
      * apply orb_false_iff in B. destruct B as [B1 B2]. rewrite (R B1 B2). exists acc, []. cbn. rewrite !app_nil_r.
        split; [rewrite <- app_assoc; reflexivity|]. split; [exact O|reflexivity].
    + inversion St; subst. exists acc, rest. cbn. rewrite !app_nil_r. split; [reflexivity|]. split; [exact O|discriminate].
    + cbn [issued flat_map]. rewrite app_nil_r. apply step_iter in St. destruct St as [(Hd & -> & ->)|[Hn Hp]].
      * exists acc, rest. rewrite app_nil_r. auto.
      * destruct (prims_order _ _ _ _ Hp acc o1 rest _ eq_refl O R) as (acc' & rest' & X). exists acc', rest'. exact X.
Qed.

(** * Byte counters *)
Definition tx_inv (L : list out) (s : rd) : Prop := rd_tx s = fold_right (fun m n => rr_size m + n) 0 (taken L).
Lemma fold_size_app a b : fold_right (fun m n => rr_size m + n) 0 (a ++ b) =
  fold_right (fun m n => rr_size m + n) 0 a + fold_right (fun m n => rr_size m + n) 0 b.
Proof. induction a as [|x a IH]; cbn [app fold_right]; [reflexivity|]. rewrite IH. lia. Qed.

Lemma prim_tx e s os s' L : prim e s os s' -> tx_inv L s -> tx_inv (L ++ os) s'.
Proof.
  unfold tx_inv. intros H T. rewrite taken_app, fold_size_app, <- T.
  destruct H as [s s' os Hc Hs|s m Hx|s|s s' m q ok Hq Hc|s c p rest Hc|s].
  - apply core_fields in Hc. destruct Hc as (_ & _ & _ & _ & -> & _). rewrite silent_taken by assumption. cbn. lia.
  - unfold rd_on_message. destruct (mget (rr_id m) (rd_pending s)) as [[? ?]|]; [destruct (try_decompress D (rr_ctype m) (rr_payload m))|]; cbn; lia.
  - unfold rd_check_timeouts. pose proof (accepted_silent_timeouts (timed_out_ids o (e_now e) (rd_pending s)) (rd_pending s)) as X.
    destruct (remove_timed_out _ _). cbn [fst snd] in *. destruct X as (_ & _ & X). cbn [taken flat_map app] in *.
    change (flat_map _ l0) with (taken l0). rewrite X. cbn. lia.
  - apply core_eq in Hc. destruct Hc as (E1 & E2 & E3 & E4 & E5 & _). destruct ok; cbn [taken flat_map app fold_right]; lia.
  - cbn. destruct (mget _ _) as [[? ?]|]; cbn; lia.
  - destruct (finish_silent s) as (_ & _ & ->). cbn. lia.
Qed.
Lemma prims_tx e s os s' : prims e s os s' -> forall L, tx_inv L s -> tx_inv (L ++ os) s'.
Proof. intros H. induction H as [s|s1 os1 s2 os2 s3 Hp Hs IH]; intros L T; [rewrite app_nil_r; exact T|].
  rewrite app_assoc. apply IH. eapply prim_tx; eauto. Qed.
Lemma run_tx evs s L : rd_run o co D rd_init evs = (s, L) -> tx_inv L s.
Proof.
  revert s L. induction evs as [|ev evs IH] using rev_ind; intros s L H.
  - inversion H; subst. reflexivity.
  - rewrite run_snoc in H. destruct (rd_run o co D rd_init evs) as [s1 o1] eqn:R1. specialize (IH s1 o1 eq_refl).
    destruct (rd_step o co D s1 ev) as [s2 o2] eqn:St. inversion H; subst s2 L. clear H. destruct ev as [c p| |e].
    + cbn in St. destruct (rd_done s1 || rd_dropped s1); inversion St; subst; unfold tx_inv in *; rewrite taken_app; cbn; rewrite app_nil_r; exact IH.
    + inversion St; subst. unfold tx_inv in *; rewrite taken_app; cbn; rewrite app_nil_r; exact IH.
    + apply step_iter in St. destruct St as [(Hd & -> & ->)|[Hn Hp]]; [rewrite app_nil_r; exact IH|]. eapply prims_tx; eauto.
Qed.
End P.
