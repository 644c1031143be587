(** Subscriber: more facts for the theorems. *)
From Coq Require Import ZArith ZifyBool ZifyNat ZifyN Permutation.
From Verif Require Import Model.Base Model.Map Model.WirePubSub Model.Compression Model.Stats Model.Framed Model.WireAuth
  Model.Handshake Model.Utf8 Model.Backoff Model.JoinMap Model.PubDriver Model.SubDriver Spec.ReqSpec Spec.SubSpec Proofs.BaseP Proofs.MapP Proofs.SubDriverP Proofs.SubDriverP2 Proofs.SubDriverP3 Proofs.SubDriverP4 Proofs.SubDriverP5 Proofs.SubDriverP6 Proofs.SubDriverP7 Proofs.SubDriverP8 Proofs.SubDriverP9.
Local Open Scope N_scope.

(** ** JoinMap *)
Section J.
Context {K : Type} {E : EqDec K}.
Lemma jm_run_JI l : forall m : joinmap K, JI m -> JI (jm_run m l).
Proof.
  induction l as [|o l IH]; intros m H; [exact H|]. cbn. apply IH. destruct o as [k|i p]; cbn.
  - destruct (jm_spawn k m) as [m' b] eqn:S. apply (JI_spawn _ _ _ _ H S).
  - destruct (jm_join i p m) as [m' b] eqn:S. exact (JI_join _ _ _ _ _ H S).
Qed.
Lemma jm_join_keys i p (m : joinmap K) : (forall k, In k (jm_keys m) -> In k (jm_tasks m)) -> p = false -> forall k, In k (jm_keys (fst (jm_join i p m))) -> In k (jm_tasks (fst (jm_join i p m))).
Proof.
  intros H -> k. unfold jm_join. destruct (nth_error (jm_tasks m) i) as [x|] eqn:N; [|apply H]. cbn. rewrite in_sdel. intros [A B]. apply H in A.
  rewrite (nth_split_eq _ _ _ N) in A. apply in_app_or in A. apply in_or_app. cbn in A. destruct A as [A|[A|A]]; auto. congruence.
Qed.
Lemma jm_run_keys l : forall m : joinmap K, (forall k, In k (jm_keys m) -> In k (jm_tasks m)) -> (forall i, ~ In (JFinish i true) l) -> forall k, In k (jm_keys (jm_run m l)) -> In k (jm_tasks (jm_run m l)).
Proof.
  induction l as [|o l IH]; intros m H Np; [exact H|]. cbn. apply IH; [|intros i Hi; apply (Np i); now right]. destruct o as [k|i p]; cbn.
  - unfold jm_spawn. destruct (smem k (jm_keys m)); [exact H|]. cbn. intros k'. rewrite in_sins, in_app_iff. cbn. intros [A| ->]; auto.
  - apply jm_join_keys; [exact H|]. destruct p; [exfalso; apply (Np i); now left|reflexivity].
Qed.
Lemma jm_run_stuck k l : forall m : joinmap K, In k (jm_keys m) -> ~ In k (jm_tasks m) -> In k (jm_keys (jm_run m l)) /\ ~ In k (jm_tasks (jm_run m l)).
Proof.
  induction l as [|o l IH]; intros m H N; [auto|]. cbn. apply IH; destruct o as [k'|i p]; cbn.
  - unfold jm_spawn. destruct (smem k' (jm_keys m)); [exact H|]. cbn. rewrite in_sins. auto.
  - unfold jm_join. destruct (nth_error (jm_tasks m) i) as [x|] eqn:Nt; [|exact H]. destruct p; cbn; [exact H|]. rewrite in_sdel. split; [exact H|]. intros ->. apply N. eapply nth_error_In; eauto.
  - unfold jm_spawn. destruct (smem k' (jm_keys m)) eqn:S; [exact N|]. cbn. rewrite in_app_iff. cbn. intros [A|[A|[]]]; [auto|]. subst. apply smem_false in S. auto.
  - unfold jm_join. destruct (nth_error (jm_tasks m) i) as [x|] eqn:Nt; [|exact N]. intros A. apply N. rewrite (nth_split_eq _ _ _ Nt). destruct p; cbn in A; apply in_app_or in A; apply in_or_app; cbn; tauto.
Qed.
End J.

Definition scommand_dec (a b : scommand) : {a = b} + {a <> b}.
Proof. decide equality; apply eq_dec. Defined.

Section P.
Variables (token : option bytes) (ingress initial : N) (D : decompressors).
Notation act := (sb_act token ingress initial D).
Notation run := (sb_run token ingress initial D).

(** ** What a step does to the command queue and the connection tasks *)
Definition tstep (s s' : sb) (o : list uout) : Prop :=
  sb_tasks s' = sb_tasks s \/ (exists a b, jm_spawn a (sb_tasks s) = (sb_tasks s', b)) \/
  (exists i p a, nth_error (jm_tasks (sb_tasks s)) i = Some a /\ sb_tasks s' = fst (jm_join i p (sb_tasks s)) /\ (p = true -> In (UTaskPanic a) o)).
Definition qstep (s s' : sb) (o : list uout) : Prop := sb_dropped s = true -> sb_cmdq s = commands o ++ sb_cmdq s'.
Lemma act_frames s ev s' o : act s ev = (s', o) -> qstep s s' o /\ tstep s s' o.
Proof.
  assert (same : forall s s' o, sb_cmdq s' = sb_cmdq s -> sb_tasks s' = sb_tasks s -> commands o = [] -> qstep s s' o /\ tstep s s' o).
  { intros a b o1 H1 H2 H3. split; [intros _; now rewrite H1, H3|now left]. }
  destruct ev as [cid e|b now| |j q order|f| |]; cbn [sb_act].
  - unfold sb_session. destruct (mget cid (sb_conns s)) as [x|]; [|intros [= <- <-]; now apply same].
    destruct (sc_alive x); [|intros [= <- <-]; now apply same]. destruct (ss_iter cid e x) as [[x' o'] r'] eqn:E. intros [= <- <-]. apply same; try reflexivity. apply (ss_iter_plain _ _ _ _ _ _ E).
  - unfold sb_entry. destruct (mget b (sb_pubs s)) as [[cid|bo]|]; [| |intros [= <- <-]; now apply same].
    + destruct (mget cid (sb_conns s)) as [x|]; [|intros [= <- <-]; now apply same]. destruct (sc_in x) as [|m rest].
      * destruct (sc_alive x); [intros [= <- <-]; now apply same|]. destruct (sb_reset initial b s) as [s1 o1] eqn:R. intros [= <- <-]. destruct (reset_plain _ _ _ _ _ R) as [((A & _) & _) (F & _ & _ & _ & T)]. now apply same.
      * cbv zeta. destruct (try_decompress _ _ _) as [p|].
        -- unfold sb_pass. cbn [sb_set_conns sb_dropped sb_out]. destruct (sb_dropped s); [|destruct (_ <? _)]; intros [= <- <-]; now apply same.
        -- intros [= <- <-]; now apply same.
    + destruct (bo_poll now bo) as [b' [d| | |]]; try (intros [= <- <-]; now apply same).
      cbv zeta. destruct (jm_contains b (sb_tasks s)); [intros [= <- <-]; now apply same|].
      unfold sb_connect. cbn [sb_set_pubs sb_tasks]. destruct (jm_spawn b (sb_tasks s)) as [jj w] eqn:J. intros [= <- <-]. split; [intros _; destruct w; reflexivity|]. right. left. exists b, w. exact J.
  - unfold sb_next_command. destruct (sb_cmdq s) as [|cc q] eqn:Eq; [intros [= <- <-]; now apply same|].
    destruct (sb_command initial cc (sb_set_cmdq s q)) as [s1 o1] eqn:E. intros [= <- <-].
    assert (K : sb_cmdq s1 = q -> commands o1 = [] -> tstep s s1 o1 -> qstep s s1 (UCmd cc :: o1) /\ tstep s s1 (UCmd cc :: o1)).
    { intros H1 H2 H3. split; [intros _; change (commands (UCmd cc :: o1)) with (cc :: commands o1); rewrite Eq, H1, H2; reflexivity|].
      destruct H3 as [|[|(i & p & a & X & Y & Z)]]; [left; auto|right; left; auto|]. right. right. exists i, p, a. repeat split; auto. intros Hp. right. auto. }
    apply K; clear K.
    + destruct cc as [t|t|b|b|]; cbn [sb_command] in E; cbv zeta in E; cbn [sb_set_cmdq sb_topics sb_pubs sb_set_topics] in E.
      * destruct (smem t (sb_topics s)); [injection E as <- <-; auto|]. destruct (tell_frame _ _ _ _ _ _ E) as ((F & _) & _). exact F.
      * destruct (smem t (sb_topics s)); [|injection E as <- <-; auto]. destruct (tell_frame _ _ _ _ _ _ E) as ((F & _) & _). exact F.
      * destruct (mem b (sb_pubs s)); [injection E as <- <-; auto|]. unfold sb_connect in E. destruct (jm_spawn _ _) as [jj w]. destruct (sb_reset initial b _) as [s3 o3] eqn:R. injection E as <- <-.
        destruct (reset_plain _ _ _ _ _ R) as [_ (F & _)]. exact F.
      * destruct (mget b (sb_pubs s)); [|injection E as <- <-; auto]. destruct (sb_release _ _) as [s2 o2] eqn:R. injection E as <- <-. destruct (release_frame _ _ _ _ R) as (F & _). exact F.
      * injection E as <- <-. auto.
    + destruct cc as [t|t|b|b|]; cbn [sb_command] in E; cbv zeta in E; cbn [sb_set_cmdq sb_topics sb_pubs sb_set_topics] in E.
      * destruct (smem t (sb_topics s)); [injection E as <- <-; auto|]. destruct (tell_frame _ _ _ _ _ _ E) as (_ & (A & _) & _). exact A.
      * destruct (smem t (sb_topics s)); [|injection E as <- <-; auto]. destruct (tell_frame _ _ _ _ _ _ E) as (_ & (A & _) & _). exact A.
      * destruct (mem b (sb_pubs s)); [injection E as <- <-; auto|]. unfold sb_connect in E. destruct (jm_spawn _ _) as [jj w]. destruct (sb_reset initial b _) as [s3 o3] eqn:R. injection E as <- <-.
        destruct (reset_plain _ _ _ _ _ R) as [((A & _) & _) _]. rewrite commands_app, A. destruct w; reflexivity.
      * destruct (mget b (sb_pubs s)); [|injection E as <- <-; auto]. destruct (sb_release _ _) as [s2 o2] eqn:R. injection E as <- <-. destruct (release_plain _ _ _ _ R) as ((A & _) & _). exact A.
      * injection E as <- <-. auto.
    + destruct cc as [t|t|b|b|]; cbn [sb_command] in E; cbv zeta in E; cbn [sb_set_cmdq sb_topics sb_pubs sb_set_topics] in E.
      * left. destruct (smem t (sb_topics s)); [injection E as <- <-; auto|]. destruct (tell_frame _ _ _ _ _ _ E) as ((_ & _ & _ & _ & F) & _). exact F.
      * left. destruct (smem t (sb_topics s)); [|injection E as <- <-; auto]. destruct (tell_frame _ _ _ _ _ _ E) as ((_ & _ & _ & _ & F) & _). exact F.
      * destruct (mem b (sb_pubs s)); [injection E as <- <-; now left|]. unfold sb_connect in E. cbn [sb_set_cmdq sb_tasks] in E. destruct (jm_spawn b (sb_tasks s)) as [jj w] eqn:J. destruct (sb_reset initial b _) as [s3 o3] eqn:R. injection E as <- <-.
        destruct (reset_plain _ _ _ _ _ R) as [_ (_ & _ & _ & _ & F)]. right. left. exists b, w. rewrite F. exact J.
      * left. destruct (mget b (sb_pubs s)); [|injection E as <- <-; auto]. destruct (sb_release _ _) as [s2 o2] eqn:R. injection E as <- <-. destruct (release_frame _ _ _ _ R) as (_ & _ & _ & _ & F). exact F.
      * injection E as <- <-. now left.
  - unfold sb_join. destruct (nth_error (jm_tasks (sb_tasks s)) j) as [b|] eqn:N; [|intros [= <- <-]; now apply same].
    destruct q as [| |ok input].
    + intros [= <- <-]. split; [intros _; reflexivity|]. right. right. exists j, false, b. repeat split; auto. discriminate.
    + intros [= <- <-]. split; [intros _; reflexivity|]. right. right. exists j, true, b. repeat split; auto. intros _. now left.
    + destruct (auth_client token ok input) as [[[| | |] w] rest].
      * destruct (sb_connected b order _) as [s2 o2] eqn:C. intros [= <- <-]. destruct (connected_tasks _ _ _ _ _ C) as (T & _).
        assert (X : sb_cmdq s2 = sb_cmdq s /\ commands o2 = []).
        { revert C. unfold sb_connected. cbv zeta. cbn [sb_set_tasks sb_pubs sb_next sb_topics sb_cmdq sb_out sb_dropped sb_tasks sb_stats sb_conns].
          destruct (mget b (sb_pubs s)) as [[cc|bb]|]; try (destruct (sb_greet _ _ _) as [x o1] eqn:Gr); intros [= <- <-]; (split; [reflexivity|]); try reflexivity; destruct (greet_tried _ _ _ _ _ Gr) as ((A & _) & _); exact A. }
        destruct X as [X Y]. split; [intros _; now rewrite X, Y|]. right. right. exists j, false, b. repeat split; auto. discriminate.
      * intros [= <- <-]. split; [intros _; reflexivity|]. right. right. exists j, false, b. repeat split; auto. discriminate.
      * intros [= <- <-]. split; [intros _; reflexivity|]. right. right. exists j, true, b. repeat split; auto. intros _. now left.
      * intros [= <- <-]. now apply same.
  - unfold sb_call, qstep. destruct (sb_dropped s) eqn:Hd; [intros [= <- <-]; split; [reflexivity|now left]|]. intros H. split; [discriminate|]. left.
    destruct (api_command f); [destruct (_ <? _)|]; injection H as <- <-; reflexivity.
  - unfold sb_take. destruct (sb_out s) as [|[[[cc b] t] p] q]; intros [= <- <-]; now apply same.
  - unfold sb_drop, qstep. destruct (sb_dropped s) eqn:Hd; intros [= <- <-]; [split; [reflexivity|now left]|]. split; [discriminate|now left].
Qed.
Lemma dropped_cmdq : forall evs s s' o, sb_dropped s = true -> run s evs = (s', o) -> sb_cmdq s = commands o ++ sb_cmdq s'.
Proof.
  induction evs as [|ev evs IH]; intros s s' o Hd; cbn [sb_run]; [intros [= <- <-]; auto|].
  destruct (act s ev) as [s1 o1] eqn:A. destruct (run s1 evs) as [s2 o2] eqn:R. intros [= <- <-].
  destruct (act_frames _ _ _ _ A) as [Q _]. destruct (act_dropped token ingress initial D _ _ _ _ Hd A) as [Hd1 _]. rewrite (Q Hd), (IH _ _ _ Hd1 R), commands_app, app_assoc. reflexivity.
Qed.

(** Without panicked tasks, the registered keys are those of running tasks. *)
Lemma run_keys evs s L : run sb_init evs = (s, L) -> forall a, In a (jm_keys (sb_tasks s)) -> In a (jm_tasks (sb_tasks s)) \/ In (UTaskPanic a) L.
Proof.
  intros R. refine (run_inv token ingress initial D (fun L s => forall a, In a (jm_keys (sb_tasks s)) -> In a (jm_tasks (sb_tasks s)) \/ In (UTaskPanic a) L) _ _ evs s L R).
  - intros a [].
  - clear. intros L s ev o s' HS I H a Ha. destruct (act_frames _ _ _ _ H) as [_ T].
    assert (W : In a (jm_tasks (sb_tasks s)) \/ In (UTaskPanic a) L -> In a (jm_tasks (sb_tasks s)) \/ In (UTaskPanic a) (L ++ o)) by (intros [|]; [auto|right; apply in_or_app; auto]).
    destruct T as [E|[(b & w & J)|(i & p & b & N & E & P)]].
    + rewrite E in Ha |- *. apply W, I, Ha.
    + revert J Ha. unfold jm_spawn. destruct (smem b (jm_keys (sb_tasks s))); intros [= J <-]; rewrite <- J; [intros Ha; apply W, I, Ha|]. cbn [jm_keys jm_tasks]. rewrite in_sins, in_app_iff. intros [Ha| ->]; [|left; right; now left].
      destruct (W (I _ Ha)); auto.
    + rewrite E in Ha |- *. unfold jm_join in *. rewrite N in *. pose proof (nth_split_eq _ _ _ N) as Es.
      assert (K : In a (jm_tasks (sb_tasks s)) -> In a (firstn i (jm_tasks (sb_tasks s)) ++ skipn (S i) (jm_tasks (sb_tasks s))) \/ a = b).
      { intros X. rewrite Es in X. apply in_app_or in X. rewrite in_app_iff. cbn in X. destruct X as [X|[X|X]]; auto. }
      destruct p; cbn [fst jm_keys jm_tasks] in *.
      * destruct (W (I _ Ha)) as [X|X]; [|auto]. destruct (K X) as [| ->]; [auto|]. right. apply in_or_app. auto.
      * rewrite in_sdel in Ha. destruct Ha as [Ha Hne]. destruct (W (I _ Ha)) as [X|X]; [|auto]. destruct (K X) as [| ->]; [auto|congruence].
Qed.

(** ** Opened connections *)
Lemma greet_utry cid : forall ts x x' o, sb_greet cid ts x = (x', o) -> Forall (fun z => exists c r, z = UTry cid c r) o.
Proof.
  induction ts as [|t ts IH]; intros x x' o; cbn [sb_greet]; [intros [= <- <-]; constructor|]. destruct (sc_try (SSub t) x) as [x1 r]. destruct (sb_greet cid ts x1) as [x2 o2] eqn:G. intros [= <- <-].
  constructor; eauto.
Qed.
Lemma fresh_silent evs s L k : run sb_init evs = (s, L) -> mget k (sb_conns s) = None -> on k L = [].
Proof. intros R G. pose proof (ci_life _ _ _ _ (run_connI token ingress initial D k _ _ _ R)) as Li. unfold lifeI in Li. now rewrite G in Li. Qed.

Lemma opened evs s L1 L2 k a : run sb_init evs = (s, L1 ++ UOpen k a :: L2) -> exists evs2 s1 s2 o L3,
  L2 = o ++ L3 /\ SI s2 /\ run s2 evs2 = (s, L3) /\ stays a k s2 /\ Forall (fun z => exists c r, z = UTry k c r) o /\ on k L1 = [] /\ (exists evs1, run sb_init evs1 = (s1, L1)).
Proof.
  intros R. destruct (run_split_open token ingress initial D _ _ _ _ _ _ _ SI_init R) as (evs1 & ev & evs2 & s1 & s2 & x & order & o & L3 & _ & R1 & G & -> & A & R2 & Fr).
  pose proof (greet_utry _ _ _ _ _ G) as Go. pose proof (fresh_silent _ _ _ _ R1 Fr) as Si. exists evs2, s1, s2, o, L3. split; [reflexivity|].
  assert (R3 : run sb_init (evs1 ++ [ev]) = (s2, L1 ++ UOpen k a :: o)). { rewrite (run_app token ingress initial D), R1. cbn [sb_run]. rewrite A. now rewrite app_nil_r. }
  pose proof (run_SI _ _ _ _ _ _ _ R3) as HS2.
  split; [exact HS2|]. split; [exact R2|]. split; [|eauto].
  destruct (open_state token ingress initial D _ _ _ k a R3) as (y & Gy & _ & Al & Hl & Hp); [apply in_or_app; right; now left|].
  assert (Neg : forall z, about k z = true -> match z with UEnd _ | UCrash _ | UClosed _ _ => True | _ => False end -> ~ In z (L1 ++ UOpen k a :: o)).
  { intros z Hz Kz Hi. apply in_app_or in Hi. destruct Hi as [Hi|[Hi|Hi]].
    - apply (in_on k) in Hi; [|exact Hz]. rewrite Si in Hi. destruct Hi.
    - subst z. exact Kz.
    - rewrite Forall_forall in Go. destruct (Go _ Hi) as (c & r & ->). exact Kz. }
  assert (Ab : forall z, match z with UEnd c | UCrash c | UClosed c _ => c = k | _ => False end -> about k z = true).
  { intros [] Hz; try contradiction; subst; cbn; destruct (eq_dec k k); congruence. }
  split.
  - apply Hp. destruct (sc_held y); [reflexivity|]. destruct (proj1 Hl eq_refl) as [l Hc]. exfalso. refine (Neg _ _ _ Hc); [now apply Ab|exact Logic.I].
  - exists y. split; [exact Gy|]. destruct (sc_alive y); [reflexivity|]. destruct (proj1 Al eq_refl) as [Hc|Hc]; exfalso; (refine (Neg _ _ _ Hc); [now apply Ab|exact Logic.I]).
Qed.

(** A connection is given up only on a disconnect command or a crash. *)
Lemma close_reason evs s L1 L2 k a lost : run sb_init evs = (s, L1 ++ UOpen k a :: L2) -> In (UClosed k lost) L2 -> In (CDisconnect a) (commands L2) \/ In (UCrash k) L2.
Proof.
  intros R Hi. destruct (opened _ _ _ _ _ _ R) as (evs2 & s1 & s2 & o & L3 & -> & HS2 & R2 & St & Fo & _ & _).
  destruct (in_dec scommand_dec (CDisconnect a) (commands (o ++ L3))) as [|Nd]; [auto|].
  assert (Dec : In (UCrash k) (o ++ L3) \/ ~ In (UCrash k) (o ++ L3)).
  { clear. induction (o ++ L3) as [|z l IH]; [right; intros []|]. destruct IH as [|N]; [left; now right|]. destruct z; try (right; intros [H|H]; [discriminate|auto]).
    destruct (eq_dec cid k) as [->|Ne]; [left; now left|]. right. intros [H|H]; [congruence|auto]. }
  destruct Dec as [|Nc]; [auto|]. exfalso. rewrite commands_app, in_app_iff in Nd. rewrite in_app_iff in Nc.
  destruct (run_stays token ingress initial D a k _ _ _ _ HS2 R2 St) as [_ F]; [tauto..|].
  apply in_app_or in Hi. destruct Hi as [Hi|Hi].
  - rewrite Forall_forall in Fo. destruct (Fo _ Hi) as (? & ? & ?). discriminate.
  - rewrite Forall_forall in F. specialize (F _ Hi). cbn in F. congruence.
Qed.
End P.
