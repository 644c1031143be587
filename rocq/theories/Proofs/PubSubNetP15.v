(** The joint model of a subscriber and a publisher socket in touch: subscribe() and unsubscribe() take effect. *)
From Coq Require Import ZArith Permutation Sorting.Sorted.
From Verif Require Import Model.Base Model.Map Model.Framed Model.WirePubSub Model.WireAuth Model.Compression Model.Handshake Model.JoinMap Model.Backoff Model.Trie Model.Utf8 Model.PubDriver Model.SubDriver Model.Net Model.PubSubNet
  Spec.Wire Spec.Stream Spec.CompressSpec Spec.PubSpec Spec.SubSpec Spec.Utf8Spec Spec.NetSpec2 Spec.NetSpec6 Spec.NetSpec8
  Proofs.BaseP Proofs.MapP Proofs.PubSubP Proofs.PubSubNetP Proofs.PubNetP Proofs.SubNetP Proofs.PubSubNetP2 Proofs.PubSubNetP3 Proofs.PubSubNetP5 Proofs.PubSubNetP6 Proofs.PubSubNetP7 Proofs.PubSubNetP8 Proofs.PubSubNetP9 Proofs.PubSubNetP10 Proofs.PubSubNetP11 Proofs.PubSubNetP12 Proofs.PubSubNetP13 Proofs.PubSubNetP14.
From Verif Require Proofs.PubDriverP Proofs.PubDriverP2 Proofs.PubDriverP3 Proofs.PubDriverP4 Proofs.SubDriverP Proofs.SubDriverP2 Proofs.SubDriverP3 Proofs.SubDriverP4.
Local Open Scope N_scope.

(** ** Telling the sessions *)
Definition told (c : N) (u : uout) : Prop := match u with UTry _ _ _ | UReset _ => True | UClosed k _ => k <> c | _ => False end.
Lemma release_told c a s s' o : SubDriverP.SI s -> (forall k, mget a (sb_pubs s) = Some (PActive k) -> k <> c) -> sb_release (mget a (sb_pubs s)) s = (s', o) ->
  Forall (told c) o /\ sb_dropped s' = sb_dropped s /\ sb_out s' = sb_out s /\ sb_cmdq s' = sb_cmdq s /\ sb_topics s' = sb_topics s /\ enqueued c o = [] /\
  mget c (sb_conns s') = mget c (sb_conns s).
Proof.
  intros I H. unfold sb_release. destruct (mget a (sb_pubs s)) as [[k|b]|] eqn:Ea; try (intros [= <- <-]; repeat split; constructor).
  destruct (mget k (sb_conns s)) as [x|]; intros [= <- <-]; [|repeat split; constructor]. specialize (H k eq_refl). repeat split; [constructor; [exact H|constructor]|]. cbn [sb_set_conns sb_conns]. apply mget_set_ne. congruence.
Qed.
Lemma reset_told initial (D : decompressors) c a s s' o : SubDriverP.SI s -> (forall k, mget a (sb_pubs s) = Some (PActive k) -> k <> c) -> sb_reset initial a s = (s', o) ->
  Forall (told c) o /\ sb_dropped s' = sb_dropped s /\ sb_out s' = sb_out s /\ sb_cmdq s' = sb_cmdq s /\ sb_topics s' = sb_topics s /\ enqueued c o = [] /\
  mget c (sb_conns s') = mget c (sb_conns s) /\ SubDriverP.SI s' /\ (forall a', a' <> a -> mget a' (sb_pubs s') = mget a' (sb_pubs s)).
Proof.
  intros I H E. destruct (SubDriverP.reset_step initial D a s s' o I E) as (I' & _ & P & _). unfold sb_reset in E. destruct (sb_release (mget a (sb_pubs s)) s) as [s1 o1] eqn:R.
  destruct (release_told c a s s1 o1 I H R) as (R1 & R2 & R3 & R4 & R5 & R6 & R7). inversion E; subst. cbn [sb_set_pubs sb_dropped sb_out sb_cmdq sb_topics sb_conns].
  split; [apply Forall_app; split; [exact R1|repeat constructor]|]. repeat (split; [assumption|]). split; [unfold enqueued in *; rewrite flat_map_app, R6; reflexivity|]. split; [exact R7|]. split; [exact I'|].
  intros a' Na. rewrite P. destruct (eq_dec a' a); [contradiction|reflexivity].
Qed.
Lemma tell_at initial (D : decompressors) cmd c a x : forall l s s' o, SubDriverP.SI s -> NoDup (mkeys l) -> (forall a0 st, In (a0, st) l -> mget a0 (sb_pubs s) = Some st) ->
  mget a (sb_pubs s) = Some (PActive c) -> mget c (sb_conns s) = Some x -> sc_alive x = true -> blen (sc_cmds x) < CMD_CAP -> sb_tell initial cmd l s = (s', o) ->
  mget c (sb_conns s') = Some (if smem a (mkeys l) then sc_set_cmds x (sc_cmds x ++ [cmd]) else x) /\ mget a (sb_pubs s') = Some (PActive c) /\
  sb_dropped s' = sb_dropped s /\ sb_out s' = sb_out s /\ sb_cmdq s' = sb_cmdq s /\ sb_topics s' = sb_topics s /\
  Forall (told c) o /\ enqueued c o = (if smem a (mkeys l) then [cmd] else []).
Proof.
  induction l as [|[a1 st] l IH]; intros s s' o I Nd Hl Ha Hc Al Rm; cbn [sb_tell].
  { intros [= <- <-]. cbn [mkeys map smem]. repeat split; auto. }
  inversion Nd as [|? ? Na Nd']; subst. fold (mkeys l) in *. pose proof (Hl a1 st (or_introl eq_refl)) as Ga.
  assert (Ek : smem a (mkeys ((a1, st) :: l)) = if eq_dec a a1 then true else smem a (mkeys l)).
  { cbn [mkeys map fst]. destruct (eq_dec a a1) as [->|Ne].
    - apply smem_true. left. reflexivity.
    - destruct (smem a (mkeys l)) eqn:E; [apply smem_true in E; apply smem_true; right; exact E|apply smem_false in E; apply smem_false; intros [K|K]; [congruence|exact (E K)]]. }
  rewrite Ek. clear Ek.
  destruct st as [k|b].
  2: { intros H. destruct (eq_dec a a1) as [->|Ne]; [congruence|]. apply (IH s s' o I Nd'); auto. intros; apply Hl; now right. }
  destruct (SubDriverP.si_act _ I _ _ Ga) as (y & Gy & Ay & Hy). rewrite Gy. destruct (sc_try cmd y) as [y' r] eqn:T.
  pose proof (SubDriverP.try_addr D cmd y) as [Ka Kh]. rewrite T in Ka, Kh. cbn [fst] in Ka, Kh.
  set (s1 := sb_set_conns s (mset k y' (sb_conns s))). assert (I1 : SubDriverP.SI s1) by (eapply SubDriverP.SI_conn; eauto).
  destruct (eq_dec a a1) as [->|Ne].
  - assert (k = c) by congruence. subst k. assert (y = x) by congruence. subst y.
    assert (Kt : y' = sc_set_cmds x (sc_cmds x ++ [cmd]) /\ r = TSent). { unfold sc_try in T. rewrite Al in T. cbn [negb] in T. apply N.ltb_lt in Rm. rewrite Rm in T. inversion T; auto. }
    destruct Kt as [-> ->]. destruct (sb_tell initial cmd l s1) as [s3 o3] eqn:E3. intros [= <- <-].
    (* the rest of the list does not have it *)
    assert (Tl : forall l s s' o z, SubDriverP.SI s -> NoDup (mkeys l) -> (forall a0 st, In (a0, st) l -> mget a0 (sb_pubs s) = Some st) -> ~ In a1 (mkeys l) -> mget a1 (sb_pubs s) = Some (PActive c) -> mget c (sb_conns s) = Some z ->
       sb_tell initial cmd l s = (s', o) -> mget c (sb_conns s') = Some z /\ mget a1 (sb_pubs s') = Some (PActive c) /\
       sb_dropped s' = sb_dropped s /\ sb_out s' = sb_out s /\ sb_cmdq s' = sb_cmdq s /\ sb_topics s' = sb_topics s /\ Forall (told c) o /\ enqueued c o = []).
    { clear - D. induction l as [|[a2 st] l IH]; intros s s' o z I Nd Hl Nn Ha Hc; cbn [sb_tell]; [intros [= <- <-]; repeat split; auto|].
      inversion Nd as [|? ? Na Nd']; subst. fold (mkeys l) in *. pose proof (Hl a2 st (or_introl eq_refl)) as Ga. cbn [mkeys map fst] in Nn. fold (mkeys l) in Nn.
      assert (Na2 : a2 <> a1) by (intros ->; apply Nn; left; reflexivity). assert (Nn' : ~ In a1 (mkeys l)) by (intros K; apply Nn; right; exact K).
      destruct st as [k|b]; [|intros H; apply (IH s s' o z I Nd'); auto; intros; apply Hl; now right].
      destruct (SubDriverP.si_act _ I _ _ Ga) as (y & Gy & Ay & Hy). rewrite Gy. destruct (sc_try cmd y) as [y' r] eqn:T.
      assert (Nk : k <> c). { intros ->. destruct (SubDriverP.si_act _ I _ _ Ha) as (y2 & Gy2 & Ay2 & _). congruence. }
      pose proof (SubDriverP.try_addr D cmd y) as [Ka Kh]. rewrite T in Ka, Kh. cbn [fst] in Ka, Kh.
      set (s1 := sb_set_conns s (mset k y' (sb_conns s))). assert (I1 : SubDriverP.SI s1) by (eapply SubDriverP.SI_conn; eauto).
      destruct (match r with TClosed => sb_reset initial a2 s1 | _ => (s1, []) end) as [s2 o2] eqn:E2.
      assert (G1 : mget c (sb_conns s1) = Some z) by (cbn [s1 sb_set_conns sb_conns]; rewrite mget_set_ne by congruence; exact Hc).
      assert (X2 : Forall (told c) o2 /\ sb_dropped s2 = sb_dropped s1 /\ sb_out s2 = sb_out s1 /\ sb_cmdq s2 = sb_cmdq s1 /\ sb_topics s2 = sb_topics s1 /\ enqueued c o2 = [] /\
        mget c (sb_conns s2) = mget c (sb_conns s1) /\ SubDriverP.SI s2 /\ (forall a', a' <> a2 -> mget a' (sb_pubs s2) = mget a' (sb_pubs s1))).
      { destruct r; [inversion E2; subst; repeat split; auto; apply I1|inversion E2; subst; repeat split; auto; apply I1|]. eapply reset_told; [exact D|exact I1| |exact E2]. intros k' Hk'. change (sb_pubs s1) with (sb_pubs s) in Hk'. congruence. }
      destruct X2 as (B1 & B2 & B3 & B4 & B5 & B6 & B7 & B8 & B9).
      destruct (sb_tell initial cmd l s2) as [s3 o3] eqn:E3. intros [= <- <-].
      destruct (IH s2 s3 o3 z B8 Nd') as (C1 & C2 & C3 & C4 & C5 & C6 & C7 & C8); auto.
      - intros a0 st0 Hi. assert (a0 <> a2) by (intros ->; apply Na; apply (in_map fst) in Hi; exact Hi). rewrite B9 by assumption. apply Hl. right. exact Hi.
      - rewrite B9 by congruence. exact Ha.
      - congruence.
      - rewrite C3, C4, C5, C6, B2, B3, B4, B5. repeat split; auto.
        + constructor; [exact Logic.I|]. apply Forall_app. auto.
        + change (UTry k cmd r :: o2 ++ o3) with ([UTry k cmd r] ++ o2 ++ o3). unfold enqueued in *. rewrite !flat_map_app, B6, C8. cbn. destruct r; try reflexivity. destruct (eq_dec k c); [congruence|reflexivity]. }
    destruct (Tl l s1 s3 o3 (sc_set_cmds x (sc_cmds x ++ [cmd])) I1 Nd') as (C1 & C2 & C3 & C4 & C5 & C6 & C7 & C8); auto.
    + intros a0 st0 Hi. apply Hl. right. exact Hi.
    + cbn [s1 sb_set_conns sb_conns]. apply mget_set_eq.
    + cbn [app]. repeat split; auto; [constructor; [exact Logic.I|exact C7]|]. unfold enqueued in *. cbn [flat_map]. rewrite C8. destruct (eq_dec c c); [reflexivity|congruence].
  - assert (Nk : k <> c). { intros ->. destruct (SubDriverP.si_act _ I _ _ Ha) as (y2 & Gy2 & Ay2 & _). congruence. }
    destruct (match r with TClosed => sb_reset initial a1 s1 | _ => (s1, []) end) as [s2 o2] eqn:E2.
    assert (G1 : mget c (sb_conns s1) = Some x) by (cbn [s1 sb_set_conns sb_conns]; rewrite mget_set_ne by congruence; exact Hc).
    assert (X2 : Forall (told c) o2 /\ sb_dropped s2 = sb_dropped s1 /\ sb_out s2 = sb_out s1 /\ sb_cmdq s2 = sb_cmdq s1 /\ sb_topics s2 = sb_topics s1 /\ enqueued c o2 = [] /\
      mget c (sb_conns s2) = mget c (sb_conns s1) /\ SubDriverP.SI s2 /\ (forall a', a' <> a1 -> mget a' (sb_pubs s2) = mget a' (sb_pubs s1))).
    { destruct r; [inversion E2; subst; repeat split; auto; apply I1|inversion E2; subst; repeat split; auto; apply I1|]. eapply reset_told; [exact D|exact I1| |exact E2]. intros k' Hk'. change (sb_pubs s1) with (sb_pubs s) in Hk'. congruence. }
    destruct X2 as (B1 & B2 & B3 & B4 & B5 & B6 & B7 & B8 & B9).
    destruct (sb_tell initial cmd l s2) as [s3 o3] eqn:E3. intros [= <- <-].
    destruct (IH s2 s3 o3 B8 Nd') as (C1 & C2 & C3 & C4 & C5 & C6 & C7 & C8); auto.
    + intros a0 st0 Hi. assert (a0 <> a1) by (intros ->; apply Na; apply (in_map fst) in Hi; exact Hi). rewrite B9 by assumption. apply Hl. right. exact Hi.
    + rewrite B9 by congruence. exact Ha.
    + congruence.
    + rewrite C3, C4, C5, C6, B2, B3, B4, B5. repeat split; auto.
      * constructor; [exact Logic.I|]. apply Forall_app. auto.
      * change (UTry k cmd r :: o2 ++ o3) with ([UTry k cmd r] ++ o2 ++ o3). unfold enqueued in *. rewrite !flat_map_app, B6, C8. cbn. destruct r; try reflexivity. destruct (eq_dec k c); [congruence|reflexivity].
Qed.

Lemma no_wire_routes cids os : (forall c m b, ~ In (UWire c m b) os) -> forall ls, fold_left (c_route cids) os ls = ls.
Proof.
  induction os as [|u os IH]; intros H ls; [reflexivity|]. cbn [fold_left]. rewrite IH by (intros c m b K; exact (H c m b (or_intror K))).
  destruct u; try reflexivity. exfalso. exact (H _ _ _ (or_introl eq_refl)).
Qed.
Lemma made_control m k : SubDriverP2.made m -> ps_topic m = ctl_topic k -> msg_to_control m = Some (match k with SSub t => TSub (from_utf8_lossy t) | SUnsub t => TUnsub (from_utf8_lossy t) end).
Proof.
  intros (now & k' & E) T. pose proof (SubDriverP2.cmd_frame_topic _ _ _ E) as T'. assert (Z : ps_payload_size m = 0).
  { destruct k'; cbn in E; unfold ps_new_sub, ps_new_unsub, ps_new in E; match type of E with context [if ?b then _ else _] => destruct b end; try discriminate; inversion E; reflexivity. }
  unfold msg_to_control. rewrite Z, T. change (0 =? 0) with true. cbv iota. destruct k as [t|t]; cbn [ctl_topic].
  - assert (S : starts_with sub_prefix (sub_prefix ++ t) = true) by (unfold starts_with; rewrite firstn_app, Nat.sub_diag, firstn_all, firstn_O, app_nil_r; destruct (eq_dec sub_prefix sub_prefix); congruence).
    rewrite S, skipn_app, Nat.sub_diag, skipn_all. reflexivity.
  - assert (S : starts_with sub_prefix (unsub_prefix ++ t) = false) by reflexivity.
    assert (S' : starts_with unsub_prefix (unsub_prefix ++ t) = true) by (unfold starts_with; rewrite firstn_app, Nat.sub_diag, firstn_all, firstn_O, app_nil_r; destruct (eq_dec unsub_prefix unsub_prefix); congruence).
    rewrite S, S', skipn_app, Nat.sub_diag, skipn_all. reflexivity.
Qed.

Section Z.
Variables (token : option bytes) (ingress initial : N) (D : decompressors)
          (max : option N) (buf min : N) (auth : option (bytes -> bool)) (co : option compressor).
Hypothesis TOK : forall t, token = Some t -> blen t < 2 ^ 32.
Notation step := (z_step token ingress initial D max buf min auth co).
Notation run := (z_run token ingress initial D max buf min auth co).
Notation fu := (first_unread buf).

Lemma rest_controls evs c d : Forall (input_fits co) evs -> in_touch (run evs) c d -> all_done (run evs) c d -> controls_on d (z_slog (run evs)) = written_on c (z_clog (run evs)).
Proof using TOK.
  intros F T (_ & _ & _ & (l & k & K1 & K2 & K3 & _ & (K4 & K5 & K6))). destruct (parts_of _ _ _ T) as (l' & k' & x & y & P).
  assert (l' = l) by (pose proof (pt_c _ _ _ _ _ _ _ P); congruence). subst l'. assert (k' = k) by (pose proof (pt_k _ _ _ _ _ _ _ P); congruence). subst k'.
  destruct (logs token ingress initial D max buf min auth co TOK _ _ _ _ _ _ _ F P) as (E1 & E2 & E3 & E4 & _ & _ & O1 & O2 & LK). rewrite <- E1, <- E4. destruct (hs_both token auth k LK O1 O2) as [Hs _].
  apply dir_rest; try assumption; [apply LK| |left; exact Hs].
  rewrite E1. eapply Forall_impl; [|eapply wf_written; [exact (sub_is_run token ingress initial D max buf min auth co TOK evs)|]]; [cbn; tauto|]. intros m. apply (run_fit token ingress initial D max buf min auth co TOK evs F).
Qed.

(** A call, the command it makes and the command the sessions get. *)
Definition asks (f : api) (sc : scommand) (cmd : sess_cmd) (s : sb) (tops : list bytes) : Prop :=
  api_command f = inl sc /\ forall s0, sb_topics s0 = sb_topics s -> sb_command initial sc s0 = sb_tell initial cmd (sb_pubs s0) (sb_set_topics s0 tops).
Lemma asks_sub b t s : starts_with MSG t = false -> ~ In t (sb_topics s) -> asks (ApSub b t) (CSub t) (SSub t) s (sins t (sb_topics s)).
Proof using.
  clear TOK. intros H1 H2. split; [cbn [api_command]; rewrite H1; reflexivity|]. intros s0 E. cbn [sb_command]. rewrite E. apply smem_false in H2. rewrite H2. reflexivity.
Qed.
Lemma asks_unsub b t s : starts_with MSG t = false -> In t (sb_topics s) -> asks (ApUnsub b t) (CUnsub t) (SUnsub t) s (sdel t (sb_topics s)).
Proof using.
  clear TOK. intros H1 H2. split; [cbn [api_command]; rewrite H1; reflexivity|]. intros s0 E. cbn [sb_command]. rewrite E. apply smem_true in H2. rewrite H2. reflexivity.
Qed.

(** The state when the driver has looked at the command. *)
Record asked_for (evs : list zev) (c d : N) (f : api) (cmd : sess_cmd) (tops : list bytes) (os : list uout) : Prop := mkAsked {
  af_touch : in_touch (run (evs ++ [ZApi f; ZCommand])) c d; af_fit : Forall (input_fits co) (evs ++ [ZApi f; ZCommand]);
  af_ann : announced (evs ++ [ZApi f; ZCommand]) = announced evs; af_pub : all_published (z_slog (run (evs ++ [ZApi f; ZCommand])));
  af_ref : nothing_refused c (z_clog (run (evs ++ [ZApi f; ZCommand])));
  af_topics : sb_topics (z_c (run (evs ++ [ZApi f; ZCommand]))) = tops; af_cmdq : sb_cmdq (z_c (run (evs ++ [ZApi f; ZCommand]))) = [];
  af_out : sb_out (z_c (run (evs ++ [ZApi f; ZCommand]))) = sb_out (z_c (run evs));
  af_in : forall x, mget c (sb_conns (z_c (run evs))) = Some x -> exists x', mget c (sb_conns (z_c (run (evs ++ [ZApi f; ZCommand])))) = Some x' /\ sc_in x' = sc_in x;
  af_s : z_s (run (evs ++ [ZApi f; ZCommand])) = z_s (run evs); af_links : z_links (run (evs ++ [ZApi f; ZCommand])) = z_links (run evs);
  af_cc : z_ccids (run (evs ++ [ZApi f; ZCommand])) = z_ccids (run evs); af_sc : z_scids (run (evs ++ [ZApi f; ZCommand])) = z_scids (run evs);
  af_clog : z_clog (run (evs ++ [ZApi f; ZCommand])) = z_clog (run evs) ++ os; af_slog : z_slog (run (evs ++ [ZApi f; ZCommand])) = z_slog (run evs);
  af_api : exists o, os = UApi f AOk :: o; af_wn : forall c0 m b, ~ In (UWire c0 m b) os; af_enq : enqueued c os = [cmd] }.
Lemma command_setup evs c d f sc cmd tops : Forall (input_fits co) evs -> in_touch (run evs) c d -> all_done (run evs) c d ->
  (forall t p, In (t, p) (announced evs) -> utf8 t) -> all_published (z_slog (run evs)) -> nothing_refused c (z_clog (run evs)) ->
  sb_cmdq (z_c (run evs)) = [] -> asks f sc cmd (z_c (run evs)) tops -> input_fits co (ZApi f) -> exists os, asked_for evs c d f cmd tops os.
Proof using TOK.
  intros F T Dn U Ap Nr Cq [As1 As2] Ff.
  destruct (parts_of _ _ _ T) as (l & k & x & y & P). pose proof P as [H1 H2 X1 X2 X3 Y K1 K2 K3 K4].
  set (z := run evs) in *. set (e2 := evs ++ [ZApi f; ZCommand]).
  set (s1 := sb_set_cmdq (sb_set_cmdq (z_c z) [sc]) []).
  destruct (sb_tell initial cmd (sb_pubs s1) (sb_set_topics s1 tops)) as [s2 o] eqn:Et.
  assert (I0 : SubDriverP.SI (z_c z)) by exact (SubDriverP.run_SI token ingress initial D _ _ _ (sub_is_run token ingress initial D max buf min auth co TOK evs)).
  assert (tops_ok : NoDup tops -> SubDriverP.SI (sb_set_topics s1 tops)). { intros Nd. destruct I0 as [i1 i2 i3 i4 i5 i6]. constructor; cbn [sb_set_topics s1 sb_set_cmdq sb_pubs sb_conns sb_next sb_topics sb_stats]; assumption. }
  assert (NdT : NoDup tops).
  { assert (Ic : exists s' o', sb_command initial sc (z_c z) = (s', o') /\ sb_topics s' = tops).
    { rewrite (As2 (z_c z) eq_refl). clear. assert (K : forall l s, sb_topics (fst (sb_tell initial cmd l s)) = sb_topics s).
      { induction l as [|[a [k|b]] l IH]; intros s; cbn [sb_tell]; [reflexivity| |apply IH]. destruct (mget k (sb_conns s)) as [x|]; [|apply IH]. destruct (sc_try cmd x) as [x' r].
        assert (Kr : forall a0 s0, sb_topics (fst (sb_reset initial a0 s0)) = sb_topics s0). { intros a0 s0. unfold sb_reset, sb_release. destruct (mget a0 (sb_pubs s0)) as [[k0|b0]|]; try reflexivity. destruct (mget k0 (sb_conns s0)); reflexivity. }
        destruct (match r with TClosed => _ | _ => _ end) as [s2 o2] eqn:E2. specialize (IH s2). destruct (sb_tell initial cmd l s2) as [s3 o3]. cbn [fst] in *. rewrite IH.
        destruct r; try (inversion E2; subst; reflexivity). specialize (Kr a (sb_set_conns s (mset k x' (sb_conns s)))). rewrite E2 in Kr. exact Kr. }
      destruct (sb_tell initial cmd (sb_pubs (z_c z)) (sb_set_topics (z_c z) tops)) as [s' o'] eqn:E. exists s', o'. split; [reflexivity|]. specialize (K (sb_pubs (z_c z)) (sb_set_topics (z_c z) tops)). rewrite E in K. exact K. }
    destruct Ic as (s' & o' & E & Es). destruct (SubDriverP.command_step initial D sc (z_c z) s' o' I0 E) as [I' _]. rewrite <- Es. exact (SubDriverP.si_top _ I'). }
  assert (Dx : exists x0, mget c (sb_conns (z_c z)) = Some x0 /\ sc_in x0 = [] /\ sc_cmds x0 = [] /\ sc_egress x0 = []) by apply Dn.
  destruct Dx as (x0 & X0 & Xi & Xc & Xe). assert (x0 = x) by congruence. subst x0.
  assert (Rm : blen (sc_cmds x) < CMD_CAP) by (rewrite Xc; unfold blen, CMD_CAP; cbn [length]; lia).
  destruct (tell_at initial D cmd c (sc_addr x) x (sb_pubs s1) (sb_set_topics s1 tops) s2 o (tops_ok NdT) (SubDriverP.si_nd _ I0)
     (fun a0 st Hi => in_mget _ _ _ (SubDriverP.si_nd _ I0) Hi) X3 X1 X2 Rm Et) as (B1 & B2 & B3 & B4 & B5 & B6 & B7 & B8).
  assert (Sm : smem (sc_addr x) (mkeys (sb_pubs s1)) = true) by (apply smem_true, mget_keys; change (sb_pubs s1) with (sb_pubs (z_c z)); congruence). rewrite Sm in B1, B8. clear Sm.
  set (os := [UApi f AOk] ++ UCmd sc :: o).
  assert (Wn : forall c0 m b, ~ In (UWire c0 m b) os). { intros c0 m b [K|[K|K]]; try discriminate. rewrite Forall_forall in B7. exact (B7 _ K). }
  assert (Fq : z_c (run e2) = s2 /\ z_s (run e2) = z_s z /\ z_links (run e2) = z_links z /\ z_ccids (run e2) = z_ccids z /\ z_scids (run e2) = z_scids z /\ z_clog (run e2) = z_clog z ++ os /\ z_slog (run e2) = z_slog z).
  { unfold e2. change [ZApi f; ZCommand] with ([ZApi f] ++ [ZCommand]). rewrite app_assoc, !run_snoc. fold z. cbn [z_step].
    assert (E1 : z_sub token ingress initial D (YApi f) z = mkZ (sb_set_cmdq (z_c z) [sc]) (z_s z) (z_links z) (z_backlog z) (z_scids z) (z_ccids z) (z_tasks z) (z_cevs z ++ [YApi f]) (z_clog z ++ [UApi f AOk]) (z_sevs z) (z_slog z)).
    { unfold z_sub, sb_act, sb_call. rewrite H1, As1, Cq. reflexivity. }
    rewrite E1. set (z1 := mkZ _ _ _ _ _ _ _ _ _ _ _).
    assert (Ea : sb_act token ingress initial D (z_c z1) YCommand = (s2, UCmd sc :: o)).
    { change (z_c z1) with (sb_set_cmdq (z_c z) [sc]). unfold sb_act, sb_next_command. change (sb_cmdq (sb_set_cmdq (z_c z) [sc])) with [sc]. cbv iota. fold s1. rewrite (As2 s1 eq_refl), Et. reflexivity. }
    unfold z_sub. rewrite Ea. cbn [z_c z_s z_links z_ccids z_scids z_clog z_slog z1]. rewrite no_wire_routes by (intros c0 m b K; apply (Wn c0 m b); right; exact K).
    repeat split; try reflexivity. unfold os. rewrite <- app_assoc. reflexivity. }
  destruct Fq as (Q1 & Q2 & Q3 & Q4 & Q5 & Q6 & Q7).
  assert (T2 : in_touch (run e2) c d).
  { apply (of_parts _ c d l k (sc_set_cmds x (sc_cmds x ++ [cmd])) y). constructor; rewrite ?Q1, ?Q2, ?Q3, ?Q4, ?Q5; try assumption. rewrite B3. exact H1. }
  assert (F2 : Forall (input_fits co) e2) by (apply Forall_app; split; [exact F|]; constructor; [exact Ff|constructor; [exact I|constructor]]).
  assert (Ea2 : announced e2 = announced evs) by (unfold e2; rewrite announced_app; cbn [announced flat_map]; apply app_nil_r).
  assert (U2 : forall t p, In (t, p) (announced e2) -> utf8 t) by (rewrite Ea2; exact U).
  assert (Ap2 : all_published (z_slog (run e2))) by (rewrite Q7; exact Ap).
  assert (Nr2 : nothing_refused c (z_clog (run e2))).
  { rewrite Q6. rewrite Forall_forall in B7. destruct Nr as (N1 & N2 & N3 & N4).
    assert (Ko : forall u, In u os -> u = UApi f AOk \/ u = UCmd sc \/ told c u) by (intros u [K|[K|K]]; [left; auto|right; left; auto|right; right; apply B7; exact K]).
    split; [|split; [|split]].
    - intros m nw r K. apply in_app_or in K. destruct K as [K|K]; [eapply N1; exact K|]. destruct (Ko _ K) as [E|[E|E]]; [discriminate|discriminate|destruct E].
    - intros m a p r K. apply in_app_or in K. destruct K as [K|K]; [eapply N2; exact K|]. destruct (Ko _ K) as [E|[E|E]]; [discriminate|discriminate|destruct E].
    - intros (lost & K). apply in_app_or in K. destruct K as [K|K]; [apply N3; exists lost; exact K|]. destruct (Ko _ K) as [E|[E|E]]; [discriminate|discriminate|exact (E eq_refl)].
    - intros K. apply in_app_or in K. destruct K as [K|K]; [exact (N4 K)|]. destruct (Ko _ K) as [E|[E|E]]; [discriminate|discriminate|destruct E]. }
  exists os. constructor; try assumption.
  - fold e2. rewrite Q1, B6. reflexivity.
  - fold e2. rewrite Q1, B5. reflexivity.
  - fold e2. rewrite Q1, B4. reflexivity.
  - fold e2. rewrite Q1, B1. intros x1 Hx. fold z in Hx. assert (x1 = x) by congruence. subst x1. eexists. split; [reflexivity|reflexivity].
  - eexists. reflexivity.
Qed.
Lemma command_rest evs c d f sc cmd tops os more o' is : (forall cm, co = Some cm -> inverse_of D cm) -> Forall (input_fits co) evs -> in_touch (run evs) c d -> all_done (run evs) c d ->
  (forall t p, In (t, p) (announced evs) -> utf8 t) -> all_published (z_slog (run evs)) -> nothing_refused c (z_clog (run evs)) ->
  asks f sc cmd (z_c (run evs)) tops -> asked_for evs c d f cmd tops os ->
  let e2 := evs ++ [ZApi f; ZCommand] in
  Forall (input_fits co) more -> in_touch (run (e2 ++ more)) c d -> all_done (run (e2 ++ more)) c d ->
  z_clog (run (e2 ++ more)) = z_clog (run e2) ++ o' -> Forall (fine_sub_busy c) o' ->
  StronglySorted N.lt is ->
  (forall i, In i is <-> due d (z_slog (run e2)) i \/
     (fu (run e2) d <= i /\ exists t p, nth_error (announced e2) (N.to_nat i) = Some (t, p) /\ trie_contains (trie_run (ops_of d (z_slog (run e2)))) t = true)) ->
  Forall2 (fun i q => nth_error (announced e2) (N.to_nat i) = Some q) is (obtained c (z_clog (run (e2 ++ more)))) ->
  let z' := run (e2 ++ more) in
    (exists o, z_clog z' = z_clog (run evs) ++ UApi f AOk :: o) /\ obtained c (z_clog z') = obtained c (z_clog (run evs)) /\
    ops_of d (z_slog z') = ops_of d (z_slog (run evs)) ++ [match cmd with SSub t => TSub (from_utf8_lossy t) | SUnsub t => TUnsub (from_utf8_lossy t) end].
Proof using TOK.
  intros INV F T Dn U Ap Nr [As1 As2] [T2 F2 Ea2 Ap2 Nr2 Qt Qq Qo Qi Q2 Q3 Q4 Q5 Q6 Q7 (oo & Eoo) Wn Eos] e2 M2 M5 M6 Eo' Fo' I1 I2 I3 z'. fold e2 in T2, F2, Ea2, Ap2, Nr2, Qt, Qq, Qo, Qi, Q2, Q3, Q4, Q5, Q6, Q7. subst z'. set (z := run evs) in *.
  destruct (parts_of _ _ _ T) as (l & k & x & y & P). pose proof P as [H1 H2 X1 X2 X3 Y K1 K2 K3 K4].
  assert (Dx : exists x0, mget c (sb_conns (z_c z)) = Some x0 /\ sc_in x0 = [] /\ sc_cmds x0 = [] /\ sc_egress x0 = []) by apply Dn.
  destruct Dx as (x0 & X0 & Xi & Xc & Xe). assert (x0 = x) by congruence. subst x0.
  rewrite Q6 in Eo'. split; [exists (oo ++ o'); rewrite Eo', Eoo, <- app_assoc; reflexivity|]. split.
  { destruct (rest_obtained token ingress initial D max buf min auth co TOK evs c d INV F T Dn U Ap Nr) as (is0 & J1 & J2 & J3). fold z in J2, J3.
    assert (Eis : is = is0). { apply sorted_unique; [exact I1|exact J1|]. intros i. rewrite I2, J2, Q7. split; [|auto]. intros [H|(H & t & p & Hn & _)]; [exact H|]. exfalso.
      assert (Et' : fu (run e2) d = blen (announced evs)).
      { destruct Dn as (_ & _ & (y' & Y1 & Y2 & Y3) & _). unfold first_unread. rewrite Q2, Y1, Y3. pose proof (forall2_len _ _ _ (hist_announced token ingress initial D max buf min auth co TOK evs Ap)) as Ln. fold z in Ln. unfold blen. rewrite Ln.
        destruct (N.ltb_spec (N.of_nat (length (pb_hist (z_s z))) + bcast_cap buf) (N.of_nat (length (pb_hist (z_s z))))); lia. }
      rewrite Et' in H. rewrite Ea2 in Hn. assert (N.to_nat i < length (announced evs))%nat by (apply nth_error_Some; congruence). unfold blen in H. lia. }
    subst is0. rewrite Ea2 in I3. eapply forall2_nth_unique; eassumption. }
  assert (F' : Forall (input_fits co) (e2 ++ more)) by (apply Forall_app; auto).
  pose proof (rest_controls evs c d F T Dn) as Rc1. fold z in Rc1. pose proof (rest_controls (e2 ++ more) c d F' M5 M6) as Rc2.
  pose proof (pub_is_run token ingress initial D max buf min auth co TOK evs) as Rs. fold z in Rs. pose proof (pub_is_run token ingress initial D max buf min auth co TOK (e2 ++ more)) as Rs'.
  rewrite (ops_means _ _ _ _ _ _ _ _ d _ Rs (ex_intro _ [] (eq_sym (app_nil_r _)))), (ops_means _ _ _ _ _ _ _ _ d _ Rs' (ex_intro _ [] (eq_sym (app_nil_r _)))), Rc1, Rc2, Eo'.
  assert (W0 : written_on c os = []). { clear - Wn. induction os as [|u os IH]; [reflexivity|]. cbn [written_on flat_map]. fold (written_on c os). rewrite IH by (intros c0 m b K; apply (Wn c0 m b); right; exact K). destruct u; try reflexivity. exfalso. exact (Wn _ _ _ (or_introl eq_refl)). }
  assert (W1 : wired c os = []). { clear - Wn. induction os as [|u os IH]; [reflexivity|]. cbn [wired flat_map]. fold (wired c os). rewrite IH by (intros c0 m b K; apply (Wn c0 m b); right; exact K). destruct u; try reflexivity. exfalso. exact (Wn _ _ _ (or_introl eq_refl)). }
  rewrite !wok_on_app, W0. cbn [app]. unfold means. rewrite app_nil_r, flat_map_app. f_equal. fold (means (written_on c o')).
  (* the one frame written *)
  pose proof (SubDriverP2.run_connI token ingress initial D c _ _ _ (sub_is_run token ingress initial D max buf min auth co TOK evs)) as CI.
  pose proof (SubDriverP2.run_connI token ingress initial D c _ _ _ (sub_is_run token ingress initial D max buf min auth co TOK (e2 ++ more))) as CI'. fold z in CI.
  assert (Dx' : exists x', mget c (sb_conns (z_c (run (e2 ++ more)))) = Some x' /\ sc_in x' = [] /\ sc_cmds x' = [] /\ sc_egress x' = []) by apply M6.
  destruct Dx' as (x' & X1' & _ & Xc' & Xe'). assert (Al' : sc_alive x' = true) by (destruct M5 as (_ & _ & (x2 & Z1 & Z2 & _) & _); congruence).
  pose proof (SubDriverP2.ci_cmd _ _ _ _ CI) as Cm. pose proof (SubDriverP2.ci_cmd _ _ _ _ CI') as Cm'. pose proof (SubDriverP2.ci_wire _ _ _ _ CI) as Wi. pose proof (SubDriverP2.ci_wire _ _ _ _ CI') as Wi'.
  unfold SubDriverP2.cmdI, SubDriverP2.wireI in *. rewrite X1 in Cm, Wi. rewrite X1' in Cm', Wi'.
  rewrite SubDriverP2.enqueued_on, SubDriverP2.got_on in Cm. rewrite SubDriverP2.enqueued_on, SubDriverP2.got_on in Cm'. rewrite SubDriverP2.wired_on, SubDriverP2.got_on in Wi. rewrite SubDriverP2.wired_on, SubDriverP2.got_on in Wi'.
  destruct Cm as (Cm & _). destruct Cm' as (Cm' & _). destruct Wi as (_ & _ & Wi & _). destruct Wi' as (Wm' & _ & Wi' & _).
  specialize (Cm X2). specialize (Cm' Al'). specialize (Wi X2). specialize (Wi' Al'). destruct Wi as [Wi _]. destruct Wi' as [Wi' _].
  rewrite Xc, app_nil_r in Cm. rewrite Xc', app_nil_r in Cm'. rewrite Xe, app_nil_r in Wi. rewrite Xe', app_nil_r in Wi'. rewrite Eo' in Cm', Wi', Wm'.
  assert (Eo : enqueued c o' = []). { clear - Fo'. induction Fo' as [|u o' Hu _ IH]; [reflexivity|]. unfold enqueued in *. cbn [flat_map]. rewrite IH. destruct Hu as [Hu| ->]; [|reflexivity]. destruct u; try contradiction; reflexivity. }
  rewrite !SubDriverP2.enqueued_app, Eo, Eos, app_nil_r in Cm'. rewrite <- Cm', Cm in Wi'. rewrite !SubDriverP2.wired_app, W1, app_nil_r in Wi'. rewrite !map_app in Wi'.
  assert (Pm : Permutation (map ps_topic (wired c o')) (map ctl_topic [cmd])). { eapply Permutation_app_inv_l. etransitivity; [|exact Wi']. apply Permutation_app_tail. symmetry. exact Wi. }
  cbn [map] in Pm. apply Permutation_sym, Permutation_length_1_inv in Pm.
  assert (Ew : written_on c o' = wired c o'). { clear - Fo'. induction Fo' as [|u o' Hu _ IH]; [reflexivity|]. unfold written_on, wired in *. cbn [flat_map]. rewrite IH. destruct Hu as [Hu| ->]; [|reflexivity]. destruct u; try contradiction; try reflexivity. destruct ok; [reflexivity|contradiction]. }
  rewrite Ew. destruct (wired c o') as [|m [|m2 r]] eqn:Ewm; try discriminate. cbn [map] in Pm. injection Pm as Pm.
  assert (Mm : SubDriverP2.made m). { rewrite !SubDriverP2.wired_app, Ewm in Wm'. apply Forall_app in Wm'. destruct Wm' as [_ Wm']. inversion Wm'. assumption. }
  cbn [means flat_map]. rewrite (made_control m cmd Mm Pm). reflexivity.
Qed.

Theorem command_way evs c d now f sc cmd tops : 0 < ingress -> (forall cm, co = Some cm -> inverse_of D cm) -> now < 2 ^ 64 -> Forall (input_fits co) evs -> in_touch (run evs) c d -> all_done (run evs) c d ->
  (forall t p, In (t, p) (announced evs) -> utf8 t) -> all_published (z_slog (run evs)) -> nothing_refused c (z_clog (run evs)) ->
  sb_cmdq (z_c (run evs)) = [] -> asks f sc cmd (z_c (run evs)) tops -> input_fits co (ZApi f) ->
  exists more, Forall (helpful now c d) more /\ Forall (input_fits co) more /\
    let z' := run (evs ++ [ZApi f; ZCommand] ++ more) in
    in_touch z' c d /\ all_done z' c d /\ all_published (z_slog z') /\ nothing_refused c (z_clog z') /\
    sb_topics (z_c z') = tops /\ sb_cmdq (z_c z') = [] /\ (exists o, z_clog z' = z_clog (run evs) ++ UApi f AOk :: o) /\ obtained c (z_clog z') = obtained c (z_clog (run evs)) /\
    ops_of d (z_slog z') = ops_of d (z_slog (run evs)) ++ [match cmd with SSub t => TSub (from_utf8_lossy t) | SUnsub t => TUnsub (from_utf8_lossy t) end].
Proof using TOK.
  intros ING INV Nw F T Dn U Ap Nr Cq As Ff. destruct (command_setup evs c d f sc cmd tops F T Dn U Ap Nr Cq As Ff) as (os & Af).
  pose proof Af as [T2 F2 Ea2 Ap2 Nr2 Qt Qq _ _ _ _ _ _ _ _ _ _ _]. set (e2 := evs ++ [ZApi f; ZCommand]) in *.
  assert (U2 : forall t p, In (t, p) (announced e2) -> utf8 t) by (rewrite Ea2; exact U).
  destruct (all_obtained token ingress initial D max buf min auth co TOK e2 c d now ING INV Nw F2 T2 U2 Ap2 Nr2) as (more & M1 & M2 & M3 & M4 & M5 & M6 & M7 & M8 & (is & I1 & I2 & I3)).
  exists more. split; [exact M1|]. split; [exact M2|]. rewrite app_assoc. fold e2. cbv zeta.
  split; [exact M5|]. split; [exact M6|]. split; [exact M7|]. split; [exact M8|].
  split; [rewrite (nr_topics _ _ _ _ M4), Qt; reflexivity|]. split; [rewrite (nr_cmdq _ _ _ _ M4), Qq; reflexivity|].
  destruct (nr_clog _ _ _ _ M4) as (o' & Eo' & Fo').
  assert (Fb : Forall (fine_sub_busy c) o') by (eapply Forall_impl; [|exact Fo']; intros u Hu; left; exact Hu).
  exact (command_rest evs c d f sc cmd tops os more o' is INV F T Dn U Ap Nr As Af M2 M5 M6 Eo' Fb I1 I2 I3).
Qed.
End Z.
