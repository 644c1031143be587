(** Subscriber: topics and commands, the ingress queue, connection attempts. *)
From Coq Require Import ZArith ZifyBool ZifyNat ZifyN Permutation.
From Verif Require Import Model.Base Model.Map Model.WirePubSub Model.Compression Model.Stats Model.Framed Model.WireAuth
  Model.Handshake Model.Utf8 Model.Backoff Model.JoinMap Model.PubDriver Model.SubDriver Spec.ReqSpec Spec.SubSpec Proofs.BaseP Proofs.MapP Proofs.SubDriverP Proofs.SubDriverP2.
Local Open Scope N_scope.

(** ** [arrange] *)
Lemma arrange_in {K} {E : EqDec K} order keys (k : K) : In k (arrange order keys) <-> In k keys.
Proof.
  unfold arrange. rewrite in_app_iff, !filter_In, nodup_In, Bool.negb_true_iff, smem_true, smem_false.
  destruct (in_dec eq_dec k order); tauto.
Qed.
Lemma arrange_nodup {K} {E : EqDec K} order keys : NoDup keys -> NoDup (@arrange K E order keys).
Proof.
  intros H. unfold arrange. pose proof (NoDup_filter (fun k => smem k keys) (NoDup_nodup eq_dec order)) as H1.
  pose proof (NoDup_filter (fun k => negb (smem k order)) H) as H2.
  assert (Dj : forall k, In k (filter (fun k => smem k keys) (nodup eq_dec order)) -> ~ In k (filter (fun k => negb (smem k order)) keys)).
  { intros k. rewrite !filter_In, nodup_In, Bool.negb_true_iff, smem_false. tauto. }
  induction H1 as [|x l Hx H1 IH]; cbn; [exact H2|]. constructor.
  - rewrite in_app_iff. intros [|Hi]; [contradiction|]. apply (Dj x (or_introl eq_refl) Hi).
  - apply IH. intros k Hk. apply Dj. now right.
Qed.
Lemma arrange_perm {K} {E : EqDec K} order keys : NoDup keys -> Permutation (@arrange K E order keys) keys.
Proof. intros H. apply NoDup_Permutation; [now apply arrange_nodup|exact H|]. intros k. apply arrange_in. Qed.

(** ** Spec functions *)
Lemma commands_app a b : commands (a ++ b) = commands a ++ commands b. Proof. apply flat_map_app. Qed.
Lemma calls_app a b : calls (a ++ b) = calls a ++ calls b. Proof. apply flat_map_app. Qed.
Lemma queued_app a b : queued (a ++ b) = queued a ++ queued b. Proof. apply flat_map_app. Qed.
Lemma yields_app a b : yields (a ++ b) = yields a ++ yields b. Proof. apply flat_map_app. Qed.
Lemma attempts_app c a b : attempts c (a ++ b) = (attempts c a + attempts c b)%nat. Proof. unfold attempts. now rewrite filter_app, app_length. Qed.
Lemma attempts_ended_app c a b : attempts_ended c (a ++ b) = (attempts_ended c a + attempts_ended c b)%nat. Proof. unfold attempts_ended. now rewrite filter_app, app_length. Qed.

(** The set of subscribed topics. *)
Fixpoint after (known : list bytes) (cs : list scommand) : list bytes :=
  match cs with
  | [] => known
  | CSub t :: cs' => after (sins t known) cs'
  | CUnsub t :: cs' => after (sdel t known) cs'
  | _ :: cs' => after known cs'
  end.
Lemma after_app : forall a known b, after known (a ++ b) = after (after known a) b.
Proof. induction a as [|[] a IH]; intros; cbn; auto. Qed.
Lemma sins_mem {K} {E : EqDec K} (t : K) k : smem t k = true -> sins t k = k. Proof. unfold sins. now intros ->. Qed.
Lemma sdel_mem {K} {E : EqDec K} (t : K) k : smem t k = false -> sdel t k = k.
Proof. rewrite smem_false. intros H. unfold sdel. now apply notin_remove. Qed.
Lemma changes_app : forall a known b, changes known (a ++ b) = changes known a ++ changes (after known a) b.
Proof.
  induction a as [|[t|t|x|x|] a IH]; intros; cbn; auto.
  - destruct (smem t known) eqn:E; [now rewrite IH, (sins_mem t known E)|]. cbn. now rewrite IH.
  - destruct (smem t known) eqn:E; [cbn; now rewrite IH|]. now rewrite IH, (sdel_mem t known E).
Qed.
Definition same {K} (a b : list K) : Prop := forall k, In k a <-> In k b.
Lemma smem_same {K} {E : EqDec K} (a b : list K) k : same a b -> smem k a = smem k b.
Proof. intros H. destruct (smem k a) eqn:A; symmetry; [rewrite smem_true in *; now apply H|rewrite smem_false in *; rewrite <- (H k); exact A]. Qed.
Lemma after_same : forall cs a b, same a b -> same (after a cs) (after b cs).
Proof.
  induction cs as [|[t|t|x|x|] cs IH]; intros a b H; cbn; auto; apply IH; intros k.
  - rewrite !in_sins. now rewrite (H k).
  - rewrite !in_sdel. now rewrite (H k).
Qed.
Lemma changes_same : forall cs a b, same a b -> changes a cs = changes b cs.
Proof.
  induction cs as [|[t|t|x|x|] cs IH]; intros a b H; cbn; auto; rewrite (smem_same a b t H); destruct (smem t b); auto; f_equal; apply IH; intros k.
  - rewrite !in_sins. now rewrite (H k).
  - rewrite !in_sdel. now rewrite (H k).
Qed.
Lemma subscribed_snoc cs c t : subscribed (cs ++ [c]) t <-> c = CSub t \/ (subscribed cs t /\ c <> CUnsub t).
Proof.
  split.
  - intros (b & a & E & N). destruct a as [|z a] using rev_ind.
    + apply app_inj_tail in E. left. apply E.
    + clear IHa. rewrite app_comm_cons, app_assoc in E. apply app_inj_tail in E. destruct E as [-> ->]. right. rewrite in_app_iff in N. split.
      * exists b, a. split; [reflexivity|]. tauto.
      * intros ->. apply N. right. now left.
  - intros [-> |[(b & a & -> & N) Nc]].
    + exists cs, []. split; [reflexivity|]. intros [].
    + exists b, (a ++ [c]). split; [now rewrite <- app_assoc|]. rewrite in_app_iff. intros [|[->|[]]]; [contradiction|]. now apply Nc.
Qed.
Lemma subscribed_nil t : ~ subscribed [] t.
Proof. intros (b & a & E & _). destruct b; discriminate. Qed.
Lemma after_subscribed : forall cs t, In t (after [] cs) <-> subscribed cs t.
Proof.
  induction cs as [|c cs IH] using rev_ind; intros t; cbn; [split; [intros []|intros H; now apply subscribed_nil in H]|].
  rewrite after_app, subscribed_snoc, <- IH. destruct c as [u|u|x|x|]; cbn; rewrite ?in_sins, ?in_sdel.
  - split; [intros [H| ->]; [right; split; [exact H|discriminate]|now left]|]. intros [[= ->]|[H _]]; auto.
  - split; [intros [H N]; right; split; [exact H|congruence]|]. intros [|[H N]]; [discriminate|]. split; [exact H|]. intros ->. now apply N.
  - split; [intros H; right; split; [exact H|discriminate]|]. intros [|[H _]]; [discriminate|exact H].
  - split; [intros H; right; split; [exact H|discriminate]|]. intros [|[H _]]; [discriminate|exact H].
  - split; [intros H; right; split; [exact H|discriminate]|]. intros [|[H _]]; [discriminate|exact H].
Qed.

Section P.
Variables (token : option bytes) (ingress initial : N) (D : decompressors).
Notation act := (sb_act token ingress initial D).
Notation run := (sb_run token ingress initial D).

(** ** Which parts of the state a step touches, and which entries it makes *)
Definition nodd (z : uout) : Prop := match z with UDropped | UDeliver _ _ _ _ _ => False | _ => True end.
Definition quiet (o : list uout) : Prop := commands o = [] /\ calls o = [] /\ queued o = [] /\ yields o = [] /\ Forall nodd o /\ (forall a, attempts a o = 0%nat).
Lemma quiet_nil : quiet [].
Proof using. repeat split; auto. Qed.
Lemma quiet_app a b : quiet a -> quiet b -> quiet (a ++ b).
Proof using.
  intros (A1 & A2 & A3 & A4 & A5 & A6) (B1 & B2 & B3 & B4 & B5 & B6). unfold quiet. rewrite commands_app, calls_app, queued_app, yields_app, A1, A2, A3, A4, B1, B2, B3, B4.
  repeat split; auto; [apply Forall_app; auto|]. intros c. rewrite attempts_app, A6, B6. reflexivity.
Qed.
Lemma quiet_one z : match z with UApi _ _ | UCmd _ | UConnect _ | UDeliver _ _ _ _ _ | UYield _ _ _ _ | UDropped => False | _ => True end -> quiet [z].
Proof using. intros H. destruct z; try contradiction; repeat split; auto; repeat constructor. Qed.

Lemma eg_quiet cid : forall eg ans e o p f, eg_loop cid eg ans = (e, o, p, f) -> quiet o /\ attempts_ended (APath []) o = 0%nat /\ (forall a, attempts_ended a o = 0%nat) /\ (forall k, tried k o = []).
Proof using.
  induction eg as [|m rest IH]; intros ans e o p f; cbn [eg_loop]; [intros [= <- <- <- <-]; split; [apply quiet_nil|auto]|].
  intros H. assert (K : forall ok o', (quiet o' /\ attempts_ended (APath []) o' = 0%nat /\ (forall a, attempts_ended a o' = 0%nat) /\ (forall k, tried k o' = [])) -> o = UWire cid m ok :: o' ->
    quiet o /\ attempts_ended (APath []) o = 0%nat /\ (forall a, attempts_ended a o = 0%nat) /\ (forall k, tried k o = [])).
  { intros ok o' (A & B & C & E) ->. split; [apply (quiet_app [_]); [now apply quiet_one|exact A]|]. auto. }
  destruct ans as [|[| |] ans'].
  - injection H as <- <- <- <-. split; [now apply quiet_one|auto].
  - destruct (eg_loop cid rest ans') as [[[e' o'] p'] f'] eqn:R. injection H as <- <- <- <-. eapply K; [eapply IH; eauto|reflexivity].
  - destruct (eg_loop cid rest ans') as [[[e' o'] p'] f'] eqn:R. injection H as <- <- <- <-. eapply K; [eapply IH; eauto|reflexivity].
  - injection H as <- <- <- <-. split; [now apply quiet_one|auto].
Qed.
Definition plain (o : list uout) : Prop := quiet o /\ (forall a, attempts_ended a o = 0%nat) /\ (forall k, tried k o = []).
Lemma plain_nil : plain []. Proof using. split; [apply quiet_nil|split; reflexivity]. Qed.
Lemma plain_app a b : plain a -> plain b -> plain (a ++ b).
Proof using.
  intros (A & A1 & A2) (B & B1 & B2). split; [now apply quiet_app|]. split; intros k; rewrite ?attempts_ended_app, ?tried_app, ?A1, ?A2, ?B1, ?B2; reflexivity.
Qed.
Lemma plain_one z : match z with UApi _ _ | UCmd _ | UConnect _ | UDeliver _ _ _ _ _ | UYield _ _ _ _ | UDropped
  | UConnectFailed _ | UTaskPanic _ | UAlready _ | UOpen _ _ | UTry _ _ _ => False | _ => True end -> plain [z].
Proof using. intros H. split; [destruct z; try contradiction; apply quiet_one; exact Logic.I|]. destruct z; try contradiction; split; reflexivity. Qed.

Lemma ss_iter_plain cid e x x' o r : ss_iter cid e x = (x', o, r) -> plain o.
Proof using.
  unfold ss_iter. cbv zeta.
  destruct (eg_loop cid (sc_egress (sc_set_egress x (sc_egress x) (if sc_flush x && y_flush e then false else sc_flush x))) (y_sends e)) as [[[eg o1] p] f] eqn:R.
  destruct (eg_quiet _ _ _ _ _ _ _ R) as (A & _ & B & C). assert (P : plain o1) by (split; auto).
  destruct (y_next e) as [m| | |].
  - unfold ss_incoming. destruct (negb _); [|destruct (_ <? _)]; intros [= <- <- <-]; now apply plain_one.
  - intros [= <- <- <-]. now apply plain_one.
  - destruct p; [intros [= <- <- <-]; exact P|]. destruct (sc_cmds _) as [|c cs].
    + destruct (sc_held _); intros [= <- <- <-]; [exact P|]. apply plain_app; [exact P|now apply plain_one].
    + destruct (cmd_frame _ _); intros [= <- <- <-]; (apply plain_app; [exact P|]); [now apply plain_one|]. apply (plain_app [_] [_]); now apply plain_one.
  - destruct p; [intros [= <- <- <-]; exact P|]. destruct (sc_cmds _) as [|c cs].
    + destruct (sc_held _); intros [= <- <- <-]; [exact P|]. apply plain_app; [exact P|now apply plain_one].
    + destruct (cmd_frame _ _); intros [= <- <- <-]; (apply plain_app; [exact P|]); [now apply plain_one|]. apply (plain_app [_] [_]); now apply plain_one.
Qed.

Lemma release_plain st s s' o : sb_release st s = (s', o) -> plain o.
Proof using.
  unfold sb_release. destruct st as [[c|b]|]; try (intros [= <- <-]; apply plain_nil). destruct (mget c (sb_conns s)); intros [= <- <-]; [now apply plain_one|apply plain_nil].
Qed.
Definition frame (s s' : sb) : Prop :=
  sb_cmdq s' = sb_cmdq s /\ sb_out s' = sb_out s /\ sb_dropped s' = sb_dropped s /\ sb_topics s' = sb_topics s /\ sb_tasks s' = sb_tasks s.
Lemma frame_refl s : frame s s. Proof using. repeat split. Qed.
Lemma frame_trans a b c : frame a b -> frame b c -> frame a c.
Proof using. intros (A1 & A2 & A3 & A4 & A5) (B1 & B2 & B3 & B4 & B5). repeat split; congruence. Qed.
Lemma release_frame st s s' o : sb_release st s = (s', o) -> frame s s'.
Proof using. unfold sb_release. destruct st as [[c|b]|]; try destruct (mget c (sb_conns s)); intros [= <- <-]; repeat split. Qed.
Lemma reset_plain a s s' o : sb_reset initial a s = (s', o) -> plain o /\ frame s s'.
Proof using.
  unfold sb_reset. destruct (sb_release (mget a (sb_pubs s)) s) as [s1 o1] eqn:R. intros [= <- <-].
  split; [apply plain_app; [eapply release_plain; eauto|now apply plain_one]|]. eapply frame_trans; [eapply release_frame; eauto|]. repeat split.
Qed.

(** [sb_tell]: one entry for every active publisher. *)
Lemma tell_frame c : forall l s s' o, sb_tell initial c l s = (s', o) -> frame s s' /\ quiet o /\ (forall a, attempts_ended a o = 0%nat).
Proof using.
  induction l as [|[a [cid|b]] l IH]; intros s s' o; cbn [sb_tell].
  - intros [= <- <-]. split; [apply frame_refl|split; [apply quiet_nil|reflexivity]].
  - destruct (mget cid (sb_conns s)) as [x|] eqn:G; [|apply IH]. destruct (sc_try c x) as [x' r].
    set (s1 := sb_set_conns s (mset cid x' (sb_conns s))). destruct (match r with TClosed => sb_reset initial a s1 | _ => (s1, []) end) as [s2 o2] eqn:E2.
    destruct (sb_tell initial c l s2) as [s3 o3] eqn:E3. intros [= <- <-]. destruct (IH _ _ _ E3) as (F3 & Q3 & A3).
    assert (X : frame s1 s2 /\ plain o2).
    { destruct r; try (injection E2 as <- <-; split; [apply frame_refl|apply plain_nil]). apply reset_plain in E2. tauto. }
    destruct X as [F2 (Q2 & A2 & _)]. split; [|split].
    + eapply frame_trans; [|eapply frame_trans; [exact F2|exact F3]]. repeat split.
    + apply (quiet_app [_]); [now apply quiet_one|]. now apply quiet_app.
    + intros k. change (UTry cid c r :: o2 ++ o3) with ([UTry cid c r] ++ o2 ++ o3). rewrite !attempts_ended_app, A2, A3. reflexivity.
  - apply IH.
Qed.

Definition active (k : N) (l : list (addr * pstate)) : Prop := exists a, In (a, PActive k) l.
Lemma tell_tried c k : forall l s s' o, SI s -> NoDup (mkeys l) ->
  (forall a st, In (a, st) l -> mget a (sb_pubs s) = Some st) -> sb_tell initial c l s = (s', o) ->
  (active k l -> tried k o = [c]) /\ (~ active k l -> tried k o = []).
Proof using D.
  induction l as [|[a st] l IH]; intros s s' o I Nd Hl; cbn [sb_tell].
  { intros [= <- <-]. split; [intros [? []]|reflexivity]. }
  inversion Nd as [|? ? Na Nd']; subst. fold (mkeys l) in *. pose proof (Hl a st (or_introl eq_refl)) as Ga.
  destruct st as [cid|b].
  2: { intros H. destruct (IH s s' o I Nd') as [H1 H2]; [intros; apply Hl; now right|exact H|]. split.
       - intros (a' & [[=]|Hi]). apply H1. exists a'. exact Hi.
       - intros Hn. apply H2. intros (a' & Hi). apply Hn. exists a'. now right. }
  destruct (si_act _ I _ _ Ga) as (x & Gx & Ax & Hx). rewrite Gx. destruct (sc_try c x) as [x' r] eqn:T.
  pose proof (try_addr D c x) as [Ka Kh]. rewrite T in Ka, Kh. cbn [fst] in Ka, Kh.
  set (s1 := sb_set_conns s (mset cid x' (sb_conns s))).
  assert (I1 : SI s1) by (eapply SI_conn; eauto).
  destruct (match r with TClosed => sb_reset initial a s1 | _ => (s1, []) end) as [s2 o2] eqn:E2.
  assert (X2 : SI s2 /\ plain o2 /\ (forall a', a' <> a -> mget a' (sb_pubs s2) = mget a' (sb_pubs s))).
  { destruct r.
    1,2: injection E2 as <- <-; split; [exact I1|]; split; [apply plain_nil|reflexivity].
    destruct (reset_plain _ _ _ _ E2) as [Pl _]. destruct (reset_step initial D a s1 s2 o2 I1 E2) as (A & _ & C & _). split; [exact A|]. split; [exact Pl|]. intros a' N. rewrite C. destruct (eq_dec a' a); [contradiction|reflexivity]. }
  destruct X2 as (I2 & (_ & _ & T2) & Q2). destruct (sb_tell initial c l s2) as [s3 o3] eqn:E3. intros [= <- <-].
  destruct (IH s2 s3 o3 I2 Nd') as [H1 H2]; [|exact E3|].
  { intros a' st' Hi. rewrite Q2; [apply Hl; now right|]. intros ->. apply Na. apply (in_map fst) in Hi. exact Hi. }
  change (UTry cid c r :: o2 ++ o3) with ([UTry cid c r] ++ o2 ++ o3). rewrite !tried_app, T2. cbn [tried flat_map app].
  destruct (eq_dec cid k) as [->|N]; cbn [app].
  - assert (Nk : ~ active k l).
    { intros (a' & Hi). pose proof (Hl _ _ (or_intror Hi)) as Ga'. destruct (si_act _ I _ _ Ga') as (x2 & Gx2 & Ax2 & _). assert (Eaa : a' = a) by congruence. apply Na. rewrite <- Eaa. apply (in_map fst) in Hi. exact Hi. }
    rewrite (H2 Nk). split; [reflexivity|]. intros Hn. exfalso. apply Hn. exists a. now left.
  - split.
    + intros (a' & [[= -> ->]|Hi]); [congruence|]. apply H1. exists a'. exact Hi.
    + intros Hn. apply H2. intros (a' & Hi). apply Hn. exists a'. now right.
Qed.
Lemma active_held s k : SI s -> (active k (sb_pubs s) <-> exists x, mget k (sb_conns s) = Some x /\ sc_held x = true).
Proof using.
  intros I. split.
  - intros (a & Hi). apply in_mget in Hi; [|apply (si_nd _ I)]. destruct (si_act _ I _ _ Hi) as (x & A & _ & B). eauto.
  - intros (x & A & B). exists (sc_addr x). apply mget_in. now apply (si_held _ I).
Qed.

Lemma greet_tried cid : forall ts x x' o, sb_greet cid ts x = (x', o) -> quiet o /\ (forall a, attempts_ended a o = 0%nat) /\ tried cid o = map SSub ts /\ (forall k, k <> cid -> tried k o = []).
Proof using.
  induction ts as [|t ts IH]; intros x x' o; cbn [sb_greet]; [intros [= <- <-]; split; [apply quiet_nil|auto]|].
  destruct (sc_try (SSub t) x) as [x1 r]. destruct (sb_greet cid ts x1) as [x2 o2] eqn:G. intros [= <- <-]. destruct (IH _ _ _ G) as (A & B & C & E).
  split; [apply (quiet_app [_]); [now apply quiet_one|exact A]|]. split; [intros a; apply B|]. cbn [tried flat_map map]. split.
  - destruct (eq_dec cid cid); [|congruence]. cbn. now rewrite <- C.
  - intros k N. destruct (eq_dec cid k); [congruence|]. cbn. now apply E.
Qed.

(** ** The main invariant *)
Record GI (L : list uout) (s : sb) : Prop := mkGI {
  (* commands *)
  gi_cmds : exists tail, commands L ++ sb_cmdq s = flat_map meaning (calls L) ++ tail /\ (tail = [] /\ sb_dropped s = false \/ sb_dropped s = true /\ (tail = [] \/ tail = [CShutdown]));
  gi_drop : sb_dropped s = true <-> In UDropped L;
  gi_cap : blen (sb_cmdq s) <= COMMAND_CAP;
  (* topics *)
  gi_top : same (sb_topics s) (after [] (commands L));
  gi_tried : forall k x, mget k (sb_conns s) = Some x -> sc_held x = true -> exists b a0 a ts,
    L = b ++ UOpen k a0 :: a /\ NoDup ts /\ same ts (after [] (commands b)) /\ tried k L = map SSub ts ++ changes ts (commands a) /\
    same (sb_topics s) (after ts (commands a));
  gi_fresh : forall k, mget k (sb_conns s) = None -> tried k L = [];
  (* ingress *)
  gi_out : sb_dropped s = false -> queued L = yields L ++ sb_out s;
  gi_out2 : exists r, queued L = yields L ++ r;
  gi_out3 : sb_dropped s = true -> sb_out s = [];
  gi_full : every (fun b z => match z with UDeliver _ _ _ _ TFull => blen (queued b) = blen (yields b) + ingress | UDeliver _ _ _ _ TClosed => In UDropped b | _ => True end) L;
  gi_outcap : blen (sb_out s) <= ingress }.

Definition uquiet (o : list uout) : Prop := commands o = [] /\ calls o = [] /\ queued o = [] /\ yields o = [] /\ Forall nodd o.
Lemma quiet_uquiet o : quiet o -> uquiet o. Proof using. intros (A & B & C & E & F & _). repeat split; auto. Qed.
Definition frame4 (s s' : sb) : Prop := sb_cmdq s' = sb_cmdq s /\ sb_out s' = sb_out s /\ sb_dropped s' = sb_dropped s /\ sb_topics s' = sb_topics s.

Lemma noful_app (o L : list uout) : Forall nodd o ->
  every (fun b z => match z with UDeliver _ _ _ _ TFull => blen (queued b) = blen (yields b) + ingress | UDeliver _ _ _ _ TClosed => In UDropped b | _ => True end) L ->
  every (fun b z => match z with UDeliver _ _ _ _ TFull => blen (queued b) = blen (yields b) + ingress | UDeliver _ _ _ _ TClosed => In UDropped b | _ => True end) (L ++ o).
Proof using.
  intros H E. apply every_app; [exact E|]. intros b z a ->. rewrite Forall_forall in H. specialize (H z ltac:(apply in_or_app; right; now left)). destruct z; auto. destruct r; auto; contradiction.
Qed.
Lemma nodd_drop o : Forall nodd o -> ~ In UDropped o.
Proof using. intros H Hi. rewrite Forall_forall in H. exact (H _ Hi). Qed.

(** Steps that neither take commands nor touch the topics, for connections that stay. *)
Lemma GI_keep L s o s' : GI L s -> frame4 s s' -> uquiet o ->
  (forall k x, mget k (sb_conns s') = Some x -> sc_held x = true -> (exists y, mget k (sb_conns s) = Some y /\ sc_held y = true) /\ tried k o = []) ->
  (forall k, mget k (sb_conns s') = None -> mget k (sb_conns s) = None /\ tried k o = []) -> GI (L ++ o) s'.
Proof using.
  intros I (F1 & F2 & F3 & F4) (Q1 & Q2 & Q3 & Q4 & Q5) Hk Hf. destruct I as [c1 c2 c3 t1 t2 t3 o1 o2 o3 o4 o5]. pose proof (nodd_drop _ Q5) as Q6.
  constructor; rewrite ?commands_app, ?calls_app, ?queued_app, ?yields_app, ?Q1, ?Q2, ?Q3, ?Q4, ?app_nil_r, ?F1, ?F2, ?F3, ?F4; auto.
  - rewrite in_app_iff. rewrite c2. tauto.
  - intros k x G H. destruct (Hk _ _ G H) as [(y & Gy & Hy) Tk]. destruct (t2 _ _ Gy Hy) as (b & a0 & a & ts & -> & A & B & C & E).
    exists b, a0, (a ++ o), ts. rewrite tried_app, Tk, app_nil_r, commands_app, Q1, app_nil_r. split; [now rewrite <- app_assoc|]. auto.
  - intros k G. rewrite tried_app. destruct (Hf _ G) as [G' ->]. now rewrite t3.
  - now apply noful_app.
Qed.
(** From the projection: connections are never forgotten, and holders do not come back. *)
Lemma cst_held k y o x1 : cst D k y o (Some x1) -> sc_held x1 = true -> (exists x0, y = Some x0 /\ sc_held x0 = true) \/ (y = None /\ exists a, In (UOpen k a) o).
Proof using.
  intros C H. remember (Some x1) as y' eqn:E. destruct C; injection E as <-; cbn in H; try discriminate; try (left; eexists; split; [reflexivity|assumption]).
  - right. split; [reflexivity|]. exists a. now left.
  - left. eexists. split; [reflexivity|]. destruct (incoming_cases k now m x) as (r & x' & EE & _ & _ & _ & _ & Eh & _). rewrite EE in H. cbn in H. congruence.
Qed.
Lemma csts_held k y o y' : csts D k y o y' -> (forall x, y' = Some x -> sc_held x = true -> (exists x0, y = Some x0 /\ sc_held x0 = true) \/ (y = None /\ exists a, In (UOpen k a) o)) /\ (y' = None -> y = None).
Proof using.
  induction 1 as [y|y o y1 o1 y2 C _ [IH1 IH2]].
  - split; [intros x -> H; left; eauto|auto].
  - split.
    + intros x -> H. destruct (IH1 x eq_refl H) as [(x1 & -> & H1)|[-> (a & Hi)]].
      * destruct (cst_held _ _ _ _ C H1) as [?|[? (a & Hi)]]; [now left|]. right. split; [assumption|]. exists a. apply in_or_app. now left.
      * inversion C.
    + intros ->. specialize (IH2 eq_refl). subst. inversion C.
Qed.
End P.
