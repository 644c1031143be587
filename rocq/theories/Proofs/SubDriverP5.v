(** Subscriber: connection attempts, disconnection, splitting runs at log entries. *)
From Coq Require Import ZArith ZifyBool ZifyNat ZifyN Permutation.
From Verif Require Import Model.Base Model.Map Model.WirePubSub Model.Compression Model.Stats Model.Framed Model.WireAuth
  Model.Handshake Model.Utf8 Model.Backoff Model.JoinMap Model.PubDriver Model.SubDriver Spec.ReqSpec Spec.SubSpec Proofs.BaseP Proofs.MapP Proofs.SubDriverP Proofs.SubDriverP2 Proofs.SubDriverP3 Proofs.SubDriverP4.
Local Open Scope N_scope.

(** ** JoinMap *)
Section J.
Context {K : Type} {E : EqDec K}.
Record JI (m : joinmap K) : Prop := mkJI { ji_nd : NoDup (jm_tasks m); ji_incl : forall k, In k (jm_tasks m) -> In k (jm_keys m); ji_nk : NoDup (jm_keys m) }.
Lemma JI_new : JI jm_new. Proof. constructor; cbn; [constructor|intros k []|constructor]. Qed.
Lemma nodup_snoc (l : list K) x : NoDup l -> ~ In x l -> NoDup (l ++ [x]).
Proof. intros H N. apply NoDup_rev in H. rewrite <- (rev_involutive (l ++ [x])), rev_app_distr. apply NoDup_rev. cbn. constructor; [now rewrite <- in_rev|exact H]. Qed.
Lemma JI_spawn k m m' b : JI m -> jm_spawn k m = (m', b) -> JI m' /\ (b = true -> ~ In k (jm_keys m) /\ jm_tasks m' = jm_tasks m ++ [k] /\ jm_keys m' = sins k (jm_keys m)) /\ (b = false -> m' = m /\ In k (jm_keys m)).
Proof.
  intros [nd inc nk]. unfold jm_spawn. destruct (smem k (jm_keys m)) eqn:M; intros [= <- <-].
  - split; [constructor; auto|]. split; [discriminate|]. intros _. split; [reflexivity|now apply smem_true].
  - apply smem_false in M. split; [|split; [auto|discriminate]]. constructor; cbn.
    + apply nodup_snoc; auto.
    + intros x. rewrite in_app_iff, in_sins. cbn. intros [H|[->|[]]]; auto.
    + now apply nodup_sins.
Qed.
Lemma nth_split_eq (l : list K) i k : nth_error l i = Some k -> l = firstn i l ++ k :: skipn (S i) l.
Proof. revert i. induction l as [|x l IH]; intros [|i]; cbn; try discriminate; [intros [= ->]; reflexivity|]. intros H. f_equal. now apply IH. Qed.
Lemma JI_join i p m m' r : JI m -> jm_join i p m = (m', r) -> JI m'.
Proof.
  intros [nd inc nk]. unfold jm_join. destruct (nth_error (jm_tasks m) i) as [k|] eqn:N; [|intros [= <- <-]; constructor; auto].
  pose proof (nth_split_eq _ _ _ N) as Es.
  assert (nd' : NoDup (firstn i (jm_tasks m) ++ skipn (S i) (jm_tasks m)) /\ ~ In k (firstn i (jm_tasks m) ++ skipn (S i) (jm_tasks m))).
  { rewrite Es in nd. split; [now apply NoDup_remove_1 in nd|now apply NoDup_remove_2 in nd]. }
  assert (inc' : forall x, In x (firstn i (jm_tasks m) ++ skipn (S i) (jm_tasks m)) -> In x (jm_tasks m)).
  { intros x Hx. rewrite Es. apply in_app_or in Hx. apply in_or_app. cbn. tauto. }
  destruct p; intros [= <- <-]; constructor; cbn; auto.
  - tauto.
  - tauto.
  - intros x Hx. rewrite in_sdel. split; [auto|]. intros ->. tauto.
  - now apply nodup_sdel.
Qed.
End J.

Section P.
Variables (token : option bytes) (ingress initial : N) (D : decompressors).
Notation act := (sb_act token ingress initial D).
Notation run := (sb_run token ingress initial D).

(** ** Connection attempts *)
Lemma count_app a (l l' : list addr) : count_occ eq_dec (l ++ l') a = (count_occ eq_dec l a + count_occ eq_dec l' a)%nat.
Proof. apply count_occ_app. Qed.
Definition TI (L : list uout) (s : sb) : Prop := JI (sb_tasks s) /\
  forall a, attempts a L = (attempts_ended a L + count_occ eq_dec (jm_tasks (sb_tasks s)) a)%nat.

Lemma TI_keep L s o s' : TI L s -> sb_tasks s' = sb_tasks s -> (forall a, attempts a o = 0%nat) -> (forall a, attempts_ended a o = 0%nat) -> TI (L ++ o) s'.
Proof. intros [A B] E H1 H2. split; [now rewrite E|]. intros a. rewrite attempts_app, attempts_ended_app, H1, H2, E, B. lia. Qed.
Lemma TI_connect L s a s' o : TI L s -> sb_connect a s = (s', o) -> TI (L ++ o) s'.
Proof.
  intros [A B]. unfold sb_connect. destruct (jm_spawn a (sb_tasks s)) as [j b] eqn:J. intros [= <- <-]. destruct (JI_spawn _ _ _ _ A J) as (J1 & J2 & J3).
  split; [exact J1|]. intros k. cbn [sb_set_tasks sb_tasks]. rewrite attempts_app, attempts_ended_app, B. destruct b.
  - destruct (J2 eq_refl) as (_ & -> & _). rewrite count_app. unfold attempts, attempts_ended. cbn [filter count_occ length]. destruct (eq_dec a k); cbn [length]; lia.
  - destruct (J3 eq_refl) as (-> & _). cbn. lia.
Qed.
(** One attempt ends. *)
Lemma TI_end L s i p a o s' : TI L s -> nth_error (jm_tasks (sb_tasks s)) i = Some a -> sb_tasks s' = fst (jm_join i p (sb_tasks s)) ->
  (forall k, attempts k o = 0%nat) -> (forall k, attempts_ended k o = if eq_dec a k then 1%nat else 0%nat) -> TI (L ++ o) s'.
Proof.
  intros [A B] N E H1 H2. split.
  - rewrite E. destruct (jm_join i p (sb_tasks s)) as [m r] eqn:J. eapply JI_join; eauto.
  - intros k. rewrite attempts_app, attempts_ended_app, H1, H2, E, B. unfold jm_join. rewrite N. pose proof (nth_split_eq _ _ _ N) as Es.
    assert (C : count_occ eq_dec (jm_tasks (sb_tasks s)) k = (count_occ eq_dec (firstn i (jm_tasks (sb_tasks s)) ++ skipn (S i) (jm_tasks (sb_tasks s))) k + if eq_dec a k then 1 else 0)%nat).
    { rewrite Es at 1. rewrite !count_app. cbn [count_occ]. destruct (eq_dec a k); lia. }
    rewrite C. destruct p; cbn [fst jm_tasks]; destruct (eq_dec a k); lia.
Qed.

Lemma connected_tasks a order s s' o : sb_connected a order s = (s', o) ->
  sb_tasks s' = sb_tasks s /\ (forall k, attempts k o = 0%nat) /\ (forall k, attempts_ended k o = if eq_dec a k then 1%nat else 0%nat).
Proof.
  unfold sb_connected. cbv zeta. destruct (sb_greet (sb_next s) (arrange order (sb_topics s)) (sc_new a)) as [x o1] eqn:G.
  destruct (greet_tried _ _ _ _ _ G) as ((_ & _ & _ & _ & _ & A) & B & _).
  assert (U : forall z, match z with UAlready b => b = a | UOpen _ b => b = a | _ => False end -> (forall k, attempts k [z] = 0%nat) /\ (forall k, attempts_ended k [z] = if eq_dec a k then 1%nat else 0%nat)).
  { intros z Hz. destruct z; try contradiction; subst; (split; [reflexivity|]); intros k; unfold attempts_ended; cbn; destruct (eq_dec a k); reflexivity. }
  assert (V : (forall k, attempts k (UOpen (sb_next s) a :: o1) = 0%nat) /\ (forall k, attempts_ended k (UOpen (sb_next s) a :: o1) = if eq_dec a k then 1%nat else 0%nat)).
  { change (UOpen (sb_next s) a :: o1) with ([UOpen (sb_next s) a] ++ o1). destruct (U (UOpen (sb_next s) a) eq_refl) as [U1 U2]. split; intros k; rewrite ?attempts_app, ?attempts_ended_app, ?U1, ?U2, ?A, ?B; lia. }
  destruct (mget a (sb_pubs s)) as [[c|b]|]; intros [= <- <-]; (split; [reflexivity|]); auto.
Qed.

Lemma act_TI L s ev o s' : SI s -> TI L s -> act s ev = (s', o) -> TI (L ++ o) s'.
Proof.
  intros HS I. destruct ev as [cid e|a now| |k r order|f| |]; cbn [sb_act].
  - unfold sb_session. destruct (mget cid (sb_conns s)) as [x|]; [|intros [= <- <-]; now rewrite app_nil_r].
    destruct (sc_alive x); [|intros [= <- <-]; now rewrite app_nil_r]. destruct (ss_iter cid e x) as [[x' o'] r'] eqn:E. intros [= <- <-].
    destruct (ss_iter_plain _ _ _ _ _ _ E) as ((_ & _ & _ & _ & _ & A) & B & _). apply (TI_keep L s); auto.
  - unfold sb_entry. destruct (mget a (sb_pubs s)) as [[cid|bo]|]; [| |intros [= <- <-]; now rewrite app_nil_r].
    + destruct (mget cid (sb_conns s)) as [x|]; [|intros [= <- <-]; now rewrite app_nil_r]. destruct (sc_in x) as [|m rest].
      * destruct (sc_alive x); [intros [= <- <-]; now rewrite app_nil_r|]. destruct (sb_reset initial a s) as [s1 o1] eqn:R. intros [= <- <-].
        destruct (reset_plain _ _ _ _ _ R) as [((_ & _ & _ & _ & _ & A) & B & _) (_ & _ & _ & _ & F)]. apply (TI_keep L s); auto.
      * cbv zeta. destruct (try_decompress _ _ _) as [p|].
        -- unfold sb_pass. cbn [sb_set_conns sb_dropped sb_out]. destruct (sb_dropped s); [|destruct (_ <? _)]; intros [= <- <-]; apply (TI_keep L s); auto.
        -- intros [= <- <-]. apply (TI_keep L s); auto.
    + destruct (bo_poll now bo) as [b' [d| | |]].
      * cbv zeta. destruct (jm_contains a (sb_tasks s)); [intros [= <- <-]; apply (TI_keep L s); auto|].
        destruct (sb_connect a _) as [s2 o2] eqn:C. intros [= <- <-]. eapply TI_connect; [|exact C]. exact I.
      * intros [= <- <-]. apply (TI_keep L s); auto.
      * intros [= <- <-]. apply (TI_keep L s); auto.
      * intros [= <- <-]. apply (TI_keep L s); auto.
  - unfold sb_next_command. destruct (sb_cmdq s) as [|c q]; [intros [= <- <-]; now rewrite app_nil_r|].
    destruct (sb_command initial c (sb_set_cmdq s q)) as [s1 o1] eqn:E. intros [= <- <-].
    change (UCmd c :: o1) with ([UCmd c] ++ o1). rewrite app_assoc. assert (I' : TI (L ++ [UCmd c]) (sb_set_cmdq s q)) by (apply (TI_keep L s); auto).
    destruct c as [t|t|a|a|]; cbn [sb_command] in E; cbv zeta in E; cbn [sb_set_cmdq sb_topics sb_pubs sb_set_topics] in E.
    + destruct (smem t (sb_topics s)); [injection E as <- <-; now rewrite app_nil_r|]. destruct (tell_frame _ _ _ _ _ _ E) as ((_ & _ & _ & _ & F) & (_ & _ & _ & _ & _ & A) & B). eapply TI_keep; [exact I'|exact F|auto..].
    + destruct (smem t (sb_topics s)); [|injection E as <- <-; now rewrite app_nil_r]. destruct (tell_frame _ _ _ _ _ _ E) as ((_ & _ & _ & _ & F) & (_ & _ & _ & _ & _ & A) & B). eapply TI_keep; [exact I'|exact F|auto..].
    + destruct (mem a (sb_pubs s)); [injection E as <- <-; now rewrite app_nil_r|].
      destruct (sb_connect a (sb_set_cmdq s q)) as [s2 o2] eqn:C. destruct (sb_reset initial a s2) as [s3 o3] eqn:R. injection E as <- <-.
      rewrite app_assoc. destruct (reset_plain _ _ _ _ _ R) as [((_ & _ & _ & _ & _ & A) & B & _) (_ & _ & _ & _ & F)]. eapply TI_keep; [eapply TI_connect; [exact I'|exact C]|auto..].
    + destruct (mget a (sb_pubs s)) as [st|]; [|injection E as <- <-; now rewrite app_nil_r]. destruct (sb_release (Some st) (sb_set_cmdq s q)) as [s2 o2] eqn:R. injection E as <- <-.
      destruct (release_frame _ _ _ _ R) as (_ & _ & _ & _ & F). destruct (release_plain _ _ _ _ R) as ((_ & _ & _ & _ & _ & A) & B & _). eapply TI_keep; [exact I'|exact F|auto..].
    + injection E as <- <-. now rewrite app_nil_r.
  - unfold sb_join. destruct (nth_error (jm_tasks (sb_tasks s)) k) as [a|] eqn:N; [|intros [= <- <-]; now rewrite app_nil_r].
    assert (U : forall z, match z with UConnectFailed b | UTaskPanic b => b = a | _ => False end -> (forall k, attempts k [z] = 0%nat) /\ (forall k, attempts_ended k [z] = if eq_dec a k then 1%nat else 0%nat)).
    { intros z Hz. destruct z; try contradiction; subst; (split; [reflexivity|]); intros k'; unfold attempts_ended; cbn; destruct (eq_dec a k'); reflexivity. }
    assert (F : forall z p, match z with UConnectFailed b | UTaskPanic b => b = a | _ => False end -> TI (L ++ [z]) (sb_set_tasks s (fst (jm_join k p (sb_tasks s))))).
    { intros z p Hz. destruct (U z Hz) as [U1 U2]. apply (TI_end L s k p a [z] (sb_set_tasks s (fst (jm_join k p (sb_tasks s)))) I N eq_refl U1 U2). }
    destruct r as [| |ok input].
    + intros [= <- <-]. now apply F.
    + intros [= <- <-]. now apply F.
    + destruct (auth_client token ok input) as [[[| | |] w] rest].
      * destruct (sb_connected a order (sb_set_tasks s (fst (jm_join k false (sb_tasks s))))) as [s2 o2] eqn:E. intros [= <- <-]. destruct (connected_tasks _ _ _ _ _ E) as (A & B & C). apply (TI_end L s k false a o2 s2 I N A B C).
      * intros [= <- <-]. now apply F.
      * intros [= <- <-]. now apply F.
      * intros [= <- <-]. now rewrite app_nil_r.
  - unfold sb_call. destruct (sb_dropped s); [intros [= <- <-]; now rewrite app_nil_r|].
    destruct (api_command f); [destruct (_ <? _)|]; intros [= <- <-]; apply (TI_keep L s); auto.
  - unfold sb_take. destruct (sb_out s) as [|[[[c a] t] p] q]; intros [= <- <-]; apply (TI_keep L s); auto.
  - unfold sb_drop. destruct (sb_dropped s); intros [= <- <-]; apply (TI_keep L s); auto.
Qed.
Lemma run_TI evs s L : run sb_init evs = (s, L) -> TI L s.
Proof. apply (run_inv token ingress initial D TI); [split; [apply JI_new|reflexivity]|]. intros. eapply act_TI; eauto. Qed.

(** ** Splitting a run at a command *)
Lemma act_cmd s ev s' o : act s ev = (s', o) -> commands o = [] \/ (ev = YCommand /\ exists c q o', sb_cmdq s = c :: q /\ sb_command initial c (sb_set_cmdq s q) = (s', o') /\ o = UCmd c :: o' /\ commands o' = []).
Proof.
  destruct ev as [cid e|a now| |k r order|f| |]; cbn [sb_act].
  - intros H. left. revert H. unfold sb_session. destruct (mget cid (sb_conns s)) as [x|]; [|intros [= <- <-]; reflexivity].
    destruct (sc_alive x); [|intros [= <- <-]; reflexivity]. destruct (ss_iter cid e x) as [[x' o'] r'] eqn:E. intros [= <- <-]. apply (ss_iter_plain _ _ _ _ _ _ E).
  - intros H. left. revert H. unfold sb_entry. destruct (mget a (sb_pubs s)) as [[cid|bo]|]; [| |intros [= <- <-]; reflexivity].
    + destruct (mget cid (sb_conns s)) as [x|]; [|intros [= <- <-]; reflexivity]. destruct (sc_in x) as [|m rest].
      * destruct (sc_alive x); [intros [= <- <-]; reflexivity|]. destruct (sb_reset initial a s) as [s1 o1] eqn:R. intros [= <- <-]. apply (reset_plain _ _ _ _ _ R).
      * cbv zeta. destruct (try_decompress _ _ _) as [p|].
        -- unfold sb_pass. cbn [sb_set_conns sb_dropped sb_out]. destruct (sb_dropped s); [|destruct (_ <? _)]; intros [= <- <-]; reflexivity.
        -- intros [= <- <-]; reflexivity.
    + destruct (bo_poll now bo) as [b' [d| | |]]; try (intros [= <- <-]; reflexivity).
      cbv zeta. destruct (jm_contains a (sb_tasks s)); [intros [= <- <-]; reflexivity|].
      unfold sb_connect. destruct (jm_spawn _ _) as [j w]. intros [= <- <-]. destruct w; reflexivity.
  - unfold sb_next_command. destruct (sb_cmdq s) as [|c q] eqn:Eq; [intros [= <- <-]; now left|].
    destruct (sb_command initial c (sb_set_cmdq s q)) as [s1 o1] eqn:E. intros [= <- <-]. right. split; [reflexivity|].
    exists c, q, o1. split; [reflexivity|]. split; [exact E|]. split; [reflexivity|].
    destruct c as [t|t|a|a|]; cbn [sb_command] in E; cbv zeta in E; cbn [sb_set_cmdq sb_topics sb_pubs sb_set_topics] in E.
    + destruct (smem t (sb_topics s)); [now injection E as <- <-|]. apply (tell_frame _ _ _ _ _ _ E).
    + destruct (smem t (sb_topics s)); [|now injection E as <- <-]. apply (tell_frame _ _ _ _ _ _ E).
    + destruct (mem a (sb_pubs s)); [now injection E as <- <-|].
      unfold sb_connect in E. destruct (jm_spawn _ _) as [j w]. destruct (sb_reset initial a _) as [s3 o3] eqn:R. injection E as <- <-.
      rewrite commands_app. destruct (reset_plain _ _ _ _ _ R) as [((A & _) & _) _]. rewrite A. destruct w; reflexivity.
    + destruct (mget a (sb_pubs s)) as [st|]; [|now injection E as <- <-]. destruct (sb_release (Some st) (sb_set_cmdq s q)) as [s2 o2] eqn:R. injection E as <- <-. apply (release_plain _ _ _ _ R).
    + now injection E as <- <-.
  - intros H. left. revert H. unfold sb_join. destruct (nth_error (jm_tasks (sb_tasks s)) k) as [a|]; [|intros [= <- <-]; reflexivity].
    destruct r as [| |ok input]; try (intros [= <- <-]; reflexivity).
    destruct (auth_client token ok input) as [[[| | |] w] rest]; try (intros [= <- <-]; reflexivity).
    unfold sb_connected. cbv zeta. cbn [sb_set_tasks sb_pubs sb_next sb_topics].
    destruct (mget a (sb_pubs s)) as [[c|b]|]; try (intros [= <- <-]; reflexivity);
      destruct (sb_greet _ _ _) as [x o1] eqn:G; intros [= <- <-]; destruct (greet_tried _ _ _ _ _ G) as ((A & _) & _); exact A.
  - unfold sb_call. destruct (sb_dropped s); [intros [= <- <-]; now left|]. left. revert H. destruct (api_command f); [destruct (_ <? _)|]; intros [= <- <-]; reflexivity.
  - unfold sb_take. destruct (sb_out s) as [|[[[c a] t] p] q]; intros [= <- <-]; now left.
  - unfold sb_drop. destruct (sb_dropped s); intros [= <- <-]; now left.
Qed.
Lemma commands_in c l : In (UCmd c) l -> In c (commands l).
Proof. intros H. unfold commands. apply in_flat_map. exists (UCmd c). split; [exact H|now left]. Qed.
Lemma in_commands c l : In c (commands l) -> In (UCmd c) l.
Proof. unfold commands. rewrite in_flat_map. intros (x & H & Hc). destruct x; try contradiction. destruct Hc as [->|[]]. exact H. Qed.

Lemma run_split c : forall evs s s' L1 L2, run s evs = (s', L1 ++ UCmd c :: L2) -> exists evs1 evs2 s1 q s2 o L3,
  evs = evs1 ++ YCommand :: evs2 /\ run s evs1 = (s1, L1) /\ sb_cmdq s1 = c :: q /\ sb_command initial c (sb_set_cmdq s1 q) = (s2, o) /\
  L2 = o ++ L3 /\ run s2 evs2 = (s', L3).
Proof.
  induction evs as [|ev evs IH]; intros s s' L1 L2; cbn [sb_run].
  - intros [= _ H]. destruct L1; discriminate.
  - destruct (act s ev) as [s1 o1] eqn:A. destruct (run s1 evs) as [s2 o2] eqn:R. intros [= <- E]. symmetry in E.
    destruct (act_cmd _ _ _ _ A) as [Hc|(-> & c' & q & o' & Eq & Ec & -> & Hc)].
    + assert (X : exists L1', L1 = o1 ++ L1' /\ o2 = L1' ++ UCmd c :: L2).
      { clear -E Hc. revert L1 E. induction o1 as [|z o1 IHo]; intros L1 E; cbn in *; [eauto|]. destruct L1 as [|y L1]; cbn in E.
        - injection E as <- _. discriminate.
        - injection E as Ez E. subst y. assert (commands o1 = []) by (destruct z; try exact Hc; discriminate). destruct (IHo H L1 E) as (L1' & -> & ->). eauto. }
      destruct X as (L1' & -> & ->). destruct (IH _ _ _ _ R) as (evs1 & evs2 & sa & q & sb & o & L3 & -> & R1 & Eq & Ec & -> & R2).
      exists (ev :: evs1), evs2, sa, q, sb, o, L3. split; [reflexivity|]. cbn [sb_run]. rewrite A, R1. auto.
    + destruct L1 as [|y L1]; cbn in E.
      * injection E as -> ->. exists [], evs, s, q, s1, o', o2. cbn. repeat split; auto.
      * injection E as -> E.
        assert (X : exists L1', L1 = o' ++ L1' /\ o2 = L1' ++ UCmd c :: L2).
        { clear -E Hc. revert L1 E. induction o' as [|z o1 IHo]; intros L1 E; cbn in *; [eauto|]. destruct L1 as [|y L1]; cbn in E.
          - injection E as <- _. discriminate.
          - injection E as Ez E. subst y. assert (commands o1 = []) by (destruct z; try exact Hc; discriminate). destruct (IHo H L1 E) as (L1' & -> & ->). eauto. }
        destruct X as (L1' & -> & ->). destruct (IH _ _ _ _ R) as (evs1 & evs2 & sa & q' & sb & o & L3 & -> & R1 & Eq' & Ec' & -> & R2).
        exists (YCommand :: evs1), evs2, sa, q', sb, o, L3. split; [reflexivity|]. cbn [sb_run]. rewrite A, R1. auto.
Qed.

(** ** A publisher that is not there *)
Definition notfrom (a : addr) (z : uout) : Prop := match z with UDeliver _ _ b _ _ | UOpen _ b | UConnect b => b <> a | _ => True end.
Lemma plain_notfrom a o : plain o -> Forall (notfrom a) o.
Proof.
  intros ((_ & _ & _ & _ & F & A) & B & _). apply Forall_forall. intros z Hz. rewrite Forall_forall in F. specialize (F z Hz). destruct z; try exact Logic.I; try contradiction; cbn; intros ->.
  - specialize (A a). unfold attempts in A. apply length_zero_iff_nil in A. assert (X : In (UConnect a) []); [|destruct X]. rewrite <- A. apply filter_In. split; [exact Hz|]. destruct (eq_dec a a); congruence.
  - eapply ended_noopen; eauto.
Qed.
Lemma quiet_notfrom a o : quiet o -> (forall b, attempts_ended b o = 0%nat) -> Forall (notfrom a) o.
Proof.
  intros (_ & _ & _ & _ & F & A) B. apply Forall_forall. intros z Hz. rewrite Forall_forall in F. specialize (F z Hz). destruct z; try exact Logic.I; try contradiction; cbn; intros ->.
  - specialize (A a). unfold attempts in A. apply length_zero_iff_nil in A. assert (X : In (UConnect a) []); [|destruct X]. rewrite <- A. apply filter_In. split; [exact Hz|]. destruct (eq_dec a a); congruence.
  - eapply ended_noopen; eauto.
Qed.
Lemma release_pubs st s s' o : sb_release st s = (s', o) -> sb_pubs s' = sb_pubs s /\ sb_stats s' = sb_stats s.
Proof. unfold sb_release. destruct st as [[c|b]|]; try destruct (mget c (sb_conns s)); intros [= <- <-]; auto. Qed.
Lemma reset_pubs a s s' o : sb_reset initial a s = (s', o) -> (forall b, b <> a -> mget b (sb_pubs s') = mget b (sb_pubs s)) /\ sb_stats s' = sb_stats s.
Proof.
  unfold sb_reset. destruct (sb_release (mget a (sb_pubs s)) s) as [s1 o1] eqn:R. intros [= <- <-]. destruct (release_pubs _ _ _ _ R) as [A B]. cbn. split; [|exact B].
  intros b N. now rewrite mget_set_ne, A by exact N.
Qed.
Lemma tell_pubs c : forall l s s' o, sb_tell initial c l s = (s', o) -> (forall b, ~ In b (mkeys l) -> mget b (sb_pubs s') = mget b (sb_pubs s)) /\ sb_stats s' = sb_stats s.
Proof.
  induction l as [|[a [cid|b]] l IH]; intros s s' o; cbn [sb_tell].
  - intros [= <- <-]. auto.
  - destruct (mget cid (sb_conns s)) as [x|]; [|intros H; destruct (IH _ _ _ H) as [A B]; split; [|exact B]; intros b Nb; apply A; intros Hi; apply Nb; now right].
    destruct (sc_try c x) as [x' r]. set (s1 := sb_set_conns s (mset cid x' (sb_conns s))). destruct (match r with TClosed => sb_reset initial a s1 | _ => (s1, []) end) as [s2 o2] eqn:E2.
    destruct (sb_tell initial c l s2) as [s3 o3] eqn:E3. intros [= <- <-]. destruct (IH _ _ _ E3) as [A B].
    assert (X : (forall b, b <> a -> mget b (sb_pubs s2) = mget b (sb_pubs s)) /\ sb_stats s2 = sb_stats s).
    { destruct r; try (injection E2 as <- <-; auto). apply reset_pubs in E2. exact E2. }
    destruct X as [X1 X2]. split; [|congruence]. intros b Nb. rewrite A by (intros Hi; apply Nb; now right). apply X1. intros ->. apply Nb. now left.
  - intros H; destruct (IH _ _ _ H) as [A B]; split; [|exact B]; intros k Nb; apply A; intros Hi; apply Nb; now right.
Qed.

Lemma act_absent a s ev s' o : act s ev = (s', o) -> mget a (sb_pubs s) = None -> ~ In a (jm_tasks (sb_tasks s)) -> ~ In (UCmd (CConnect a)) o ->
  mget a (sb_pubs s') = None /\ ~ In a (jm_tasks (sb_tasks s')) /\ (mget a (sb_stats s) = None -> mget a (sb_stats s') = None) /\ Forall (notfrom a) o.
Proof.
  intros H Hp Ht Hc. revert H. destruct ev as [cid e|b now| |k r order|f| |]; cbn [sb_act].
  - unfold sb_session. destruct (mget cid (sb_conns s)) as [x|]; [|intros [= <- <-]; auto].
    destruct (sc_alive x); [|intros [= <- <-]; auto]. destruct (ss_iter cid e x) as [[x' o'] r'] eqn:E. intros [= <- <-]. repeat (split; [auto|]). apply plain_notfrom. exact (ss_iter_plain _ _ _ _ _ _ E).
  - unfold sb_entry. destruct (mget b (sb_pubs s)) as [[cid|bo]|] eqn:Gb; [| |intros [= <- <-]; auto].
    + assert (Nb : a <> b) by congruence. destruct (mget cid (sb_conns s)) as [x|]; [|intros [= <- <-]; auto]. destruct (sc_in x) as [|m rest].
      * destruct (sc_alive x); [intros [= <- <-]; auto|]. destruct (sb_reset initial b s) as [s1 o1] eqn:R. intros [= <- <-].
        destruct (reset_plain _ _ _ _ _ R) as [Pl (_ & _ & _ & _ & F)]. destruct (reset_pubs _ _ _ _ R) as [A B].
        rewrite (A a Nb), F, B. repeat (split; [auto|]). now apply plain_notfrom.
      * cbv zeta. destruct (try_decompress _ _ _) as [p|].
        -- unfold sb_pass. cbn [sb_set_conns sb_dropped sb_out]. destruct (sb_dropped s); [|destruct (_ <? _)]; intros [= <- <-]; repeat (split; [auto|]); repeat constructor; cbn; congruence.
        -- intros [= <- <-]. repeat (split; [auto|]). repeat constructor.
    + assert (Nb : a <> b) by congruence. destruct (bo_poll now bo) as [b' [d| | |]].
      * cbv zeta. destruct (jm_contains b (sb_tasks s)); [intros [= <- <-]; cbn; rewrite mget_set_ne by exact Nb; auto|].
        unfold sb_connect. cbn [sb_set_pubs sb_tasks]. unfold jm_spawn. destruct (smem b (jm_keys (sb_tasks s))); intros [= <- <-]; cbn; rewrite mget_set_ne by exact Nb; auto.
        split; [auto|]. split; [rewrite in_app_iff; cbn; intros [|[|[]]]; [contradiction|congruence]|]. split; [auto|]. repeat constructor. cbn. congruence.
      * intros [= <- <-]. cbn. rewrite mget_del_ne by exact Nb. repeat (split; [auto|]). repeat constructor.
      * intros [= <- <-]. cbn. rewrite mget_set_ne by exact Nb. repeat (split; [auto|]). repeat constructor.
      * intros [= <- <-]. auto.
  - unfold sb_next_command. destruct (sb_cmdq s) as [|c q] eqn:Eq; [intros [= <- <-]; auto|].
    destruct (sb_command initial c (sb_set_cmdq s q)) as [s1 o1] eqn:E. intros [= <- <-].
    assert (K : mget a (sb_pubs s1) = None /\ ~ In a (jm_tasks (sb_tasks s1)) /\ (mget a (sb_stats s) = None -> mget a (sb_stats s1) = None) /\ Forall (notfrom a) o1).
    { assert (tl : forall sc tps, sb_tell initial sc (sb_pubs s) (sb_set_topics (sb_set_cmdq s q) tps) = (s1, o1) -> mget a (sb_pubs s1) = None /\ ~ In a (jm_tasks (sb_tasks s1)) /\ (mget a (sb_stats s) = None -> mget a (sb_stats s1) = None) /\ Forall (notfrom a) o1).
      { intros sc tps T. destruct (tell_frame _ _ _ _ _ _ T) as ((_ & _ & _ & _ & F) & A & B). destruct (tell_pubs _ _ _ _ _ T) as [X Y]. rewrite F, X, Y by now apply mget_not_keys.
        repeat (split; [auto|]). now apply quiet_notfrom. }
      destruct c as [t|t|b|b|]; cbn [sb_command] in E; cbv zeta in E; cbn [sb_set_cmdq sb_topics sb_pubs sb_set_topics] in E.
      + destruct (smem t (sb_topics s)); [injection E as <- <-; auto|eauto].
      + destruct (smem t (sb_topics s)); [eauto|injection E as <- <-; auto].
      + assert (Nb : a <> b) by (intros ->; apply Hc; now left). destruct (mem b (sb_pubs s)); [injection E as <- <-; auto|].
        unfold sb_connect in E. cbn [sb_set_cmdq sb_tasks] in E. destruct (jm_spawn b (sb_tasks s)) as [j w] eqn:J. destruct (sb_reset initial b _) as [s3 o3] eqn:R. injection E as <- <-.
        destruct (reset_plain _ _ _ _ _ R) as [Pl (_ & _ & _ & _ & F)]. destruct (reset_pubs _ _ _ _ R) as [A B]. rewrite (A a Nb), F, B. cbn.
        split; [exact Hp|]. split; [|split; [auto|]].
        * unfold jm_spawn in J. destruct (smem b (jm_keys (sb_tasks s))); injection J as <- <-; [exact Ht|]. cbn. rewrite in_app_iff. cbn. intros [|[|[]]]; [contradiction|congruence].
        * apply Forall_app. split; [destruct w; repeat constructor; cbn; congruence|now apply plain_notfrom].
      + destruct (mget b (sb_pubs s)) as [st|] eqn:Gb; [|injection E as <- <-; auto]. destruct (sb_release (Some st) (sb_set_cmdq s q)) as [s2 o2] eqn:R. injection E as <- <-.
        destruct (release_frame _ _ _ _ R) as (_ & _ & _ & _ & F). destruct (release_pubs _ _ _ _ R) as [A B]. cbn. rewrite mget_del_ne, A, F by congruence.
        split; [exact Hp|]. split; [exact Ht|]. split; [rewrite mget_del, B; destruct (eq_dec a b); auto|]. apply plain_notfrom. exact (release_plain _ _ _ _ R).
      + injection E as <- <-; auto. }
    destruct K as (K1 & K2 & K3 & K4). repeat (split; [assumption|]). constructor; [exact Logic.I|exact K4].
  - unfold sb_join. destruct (nth_error (jm_tasks (sb_tasks s)) k) as [b|] eqn:N; [|intros [= <- <-]; auto].
    assert (Nb : a <> b) by (intros ->; apply Ht; eapply nth_error_In; eauto).
    assert (T : forall p, ~ In a (jm_tasks (fst (jm_join k p (sb_tasks s))))).
    { intros p Hi. apply Ht. unfold jm_join in Hi. rewrite N in Hi. pose proof (nth_split_eq _ _ _ N) as Es. rewrite Es. destruct p; cbn [fst jm_tasks] in Hi; apply in_app_or in Hi; apply in_or_app; cbn; tauto. }
    destruct r as [| |ok input]; try (intros [= <- <-]; cbn [sb_set_tasks sb_pubs sb_tasks sb_stats]; repeat (split; [auto|]); repeat constructor).
    destruct (auth_client token ok input) as [[[| | |] w] rest]; try (intros [= <- <-]; cbn [sb_set_tasks sb_pubs sb_tasks sb_stats]; repeat (split; [auto|]); repeat constructor).
    unfold sb_connected. cbv zeta. cbn [sb_set_tasks sb_pubs sb_next sb_topics sb_cmdq sb_out sb_dropped sb_tasks sb_stats sb_conns].
    assert (U : forall x o1, sb_greet (sb_next s) (arrange order (sb_topics s)) (sc_new b) = (x, o1) -> Forall (notfrom a) (UOpen (sb_next s) b :: o1)).
    { intros x o1 G. destruct (greet_tried _ _ _ _ _ G) as (A & B & _). constructor; [cbn; congruence|now apply quiet_notfrom]. }
    destruct (mget b (sb_pubs s)) as [[c|bb]|]; try (destruct (sb_greet _ _ _) as [x o1] eqn:G); intros [= <- <-]; cbn [sb_pubs sb_tasks sb_stats sb_set_tasks].
    + repeat (split; [auto|]). repeat constructor.
    + rewrite !mget_set_ne by exact Nb. repeat (split; [auto|]). eauto.
    + rewrite !mget_set_ne by exact Nb. repeat (split; [auto|]). eauto.
  - unfold sb_call. destruct (sb_dropped s); [intros [= <- <-]; auto|]. destruct (api_command f); [destruct (_ <? _)|]; intros [= <- <-]; repeat (split; [auto|]); repeat constructor.
  - unfold sb_take. destruct (sb_out s) as [|[[[c b] t] p] q]; intros [= <- <-]; repeat (split; [auto|]); repeat constructor.
  - unfold sb_drop. destruct (sb_dropped s); intros [= <- <-]; repeat (split; [auto|]); repeat constructor.
Qed.
Lemma run_absent a : forall evs s s' o, run s evs = (s', o) -> mget a (sb_pubs s) = None -> ~ In a (jm_tasks (sb_tasks s)) -> ~ In (CConnect a) (commands o) ->
  mget a (sb_pubs s') = None /\ ~ In a (jm_tasks (sb_tasks s')) /\ (mget a (sb_stats s) = None -> mget a (sb_stats s') = None) /\ Forall (notfrom a) o.
Proof.
  induction evs as [|ev evs IH]; intros s s' o; cbn [sb_run]; [intros [= <- <-]; auto|].
  destruct (act s ev) as [s1 o1] eqn:A. destruct (run s1 evs) as [s2 o2] eqn:R. intros [= <- <-] Hp Ht Hc. rewrite commands_app, in_app_iff in Hc.
  destruct (act_absent a _ _ _ _ A Hp Ht) as (A1 & A2 & A3 & A4); [intros Hi; apply Hc; left; now apply commands_in|].
  destruct (IH _ _ _ R A1 A2) as (B1 & B2 & B3 & B4); [tauto|]. repeat (split; [auto|]). apply Forall_app; auto.
Qed.

(** Statistics of a publisher that is not there are left over from giving up. *)
Lemma act_stale a s ev s' o : SI s -> act s ev = (s', o) -> ~ In (UGaveUp a) o -> (mget a (sb_stats s) = None \/ mget a (sb_pubs s) <> None) -> (mget a (sb_stats s') = None \/ mget a (sb_pubs s') <> None).
Proof.
  intros HS H Hg Hp. revert H. destruct ev as [cid e|b now| |k r order|f| |]; cbn [sb_act].
  - unfold sb_session. destruct (mget cid (sb_conns s)) as [x|]; [|intros [= <- <-]; auto].
    destruct (sc_alive x); [|intros [= <- <-]; auto]. destruct (ss_iter cid e x) as [[x' o'] r'] eqn:E. intros [= <- <-]. exact Hp.
  - unfold sb_entry. destruct (mget b (sb_pubs s)) as [[cid|bo]|] eqn:Gb; [| |intros [= <- <-]; auto].
    + destruct (mget cid (sb_conns s)) as [x|]; [|intros [= <- <-]; auto]. destruct (sc_in x) as [|m rest].
      * destruct (sc_alive x); [intros [= <- <-]; auto|]. destruct (sb_reset initial b s) as [s1 o1] eqn:R. intros [= <- <-].
        destruct (reset_pubs _ _ _ _ R) as [A B]. rewrite B. destruct Hp as [Hp|Hp]; [now left|]. right. destruct (eq_dec a b) as [->|N]; [|now rewrite A].
        unfold sb_reset in R. destruct (sb_release _ s) as [s2 o2]. injection R as <- <-. cbn. rewrite mget_set_eq. discriminate.
      * cbv zeta. destruct (try_decompress _ _ _) as [p|].
        -- unfold sb_pass. cbn [sb_set_conns sb_dropped sb_out]. destruct (sb_dropped s); [|destruct (_ <? _)]; intros [= <- <-]; exact Hp.
        -- intros [= <- <-]. exact Hp.
    + assert (S : forall st q, mget a (sb_pubs s) <> None -> q = mset b st (sb_pubs s) -> mget a q <> None).
      { intros st q Ha ->. rewrite mget_set. destruct (eq_dec a b); [discriminate|exact Ha]. }
      destruct (bo_poll now bo) as [b' [d| | |]].
      * cbv zeta. destruct (jm_contains b (sb_tasks s)); [intros [= <- <-]; cbn; destruct Hp; [now left|right; eapply S; eauto]|].
        unfold sb_connect. destruct (jm_spawn _ _) as [j w]. intros [= <- <-]; cbn; destruct Hp; [now left|right; eapply S; eauto].
      * intros [= <- <-]. cbn. destruct Hp; [now left|right]. rewrite mget_del. destruct (eq_dec a b) as [->|]; [exfalso; apply Hg; now left|assumption].
      * intros [= <- <-]. cbn; destruct Hp; [now left|right; eapply S; eauto].
      * intros [= <- <-]. auto.
  - unfold sb_next_command. destruct (sb_cmdq s) as [|c q] eqn:Eq; [intros [= <- <-]; auto|].
    destruct (sb_command initial c (sb_set_cmdq s q)) as [s1 o1] eqn:E. intros [= <- <-].
    assert (tl : forall sc tps, NoDup tps -> sb_tell initial sc (sb_pubs s) (sb_set_topics (sb_set_cmdq s q) tps) = (s1, o1) -> mget a (sb_stats s1) = None \/ mget a (sb_pubs s1) <> None).
    { intros sc tps Nt T. destruct (tell_pubs _ _ _ _ _ T) as [X Y]. destruct Hp as [Hp|Hp]; [left; now rewrite Y|right].
      clear -T Hp. assert (G : forall l s s' o, mget a (sb_pubs s) <> None -> sb_tell initial sc l s = (s', o) -> mget a (sb_pubs s') <> None).
      { clear. induction l as [|[b [cid|bo]] l IH]; intros s s' o Ha; cbn [sb_tell].
        - now intros [= <- <-].
        - destruct (mget cid (sb_conns s)) as [x|]; [|now apply IH]. destruct (sc_try sc x) as [x' r]. set (s1 := sb_set_conns s (mset cid x' (sb_conns s))).
          destruct (match r with TClosed => sb_reset initial b s1 | _ => (s1, []) end) as [s2 o2] eqn:E2. destruct (sb_tell initial sc l s2) as [s3 o3] eqn:E3. intros [= <- <-].
          eapply IH; [|exact E3]. destruct r; try (injection E2 as <- <-; exact Ha). destruct (reset_pubs _ _ _ _ E2) as [A _]. destruct (eq_dec a b) as [->|N]; [|rewrite A by exact N; exact Ha].
          unfold sb_reset in E2. destruct (sb_release _ s1) as [s4 o4]. injection E2 as <- <-. cbn. rewrite mget_set_eq. discriminate.
        - now apply IH. }
      eapply G; [|exact T]. exact Hp. }
    destruct c as [t|t|b|b|]; cbn [sb_command] in E; cbv zeta in E; cbn [sb_set_cmdq sb_topics sb_pubs sb_set_topics] in E.
    + destruct (smem t (sb_topics s)); [injection E as <- <-; auto|eapply tl; [|exact E]; apply nodup_sins, (si_top _ HS)].
    + destruct (smem t (sb_topics s)); [eapply tl; [|exact E]; apply nodup_sdel, (si_top _ HS)|injection E as <- <-; auto].
    + destruct (mem b (sb_pubs s)); [injection E as <- <-; auto|].
      unfold sb_connect in E. destruct (jm_spawn _ _) as [j w] eqn:J. destruct (sb_reset initial b _) as [s3 o3] eqn:R. injection E as <- <-.
      destruct (reset_pubs _ _ _ _ R) as [A B]. rewrite B. cbn. destruct Hp as [Hp|Hp]; [now left|right]. destruct (eq_dec a b) as [->|N]; [|rewrite A by exact N; exact Hp].
      unfold sb_reset in R. destruct (sb_release _ _) as [s4 o4]. injection R as <- <-. cbn. rewrite mget_set_eq. discriminate.
    + destruct (mget b (sb_pubs s)) as [st|] eqn:Gb; [|injection E as <- <-; auto]. destruct (sb_release (Some st) (sb_set_cmdq s q)) as [s2 o2] eqn:R. injection E as <- <-.
      destruct (release_pubs _ _ _ _ R) as [A B]. cbn. rewrite A, B. cbn. rewrite !mget_del. destruct (eq_dec a b); [now left|exact Hp].
    + injection E as <- <-; auto.
  - unfold sb_join. destruct (nth_error (jm_tasks (sb_tasks s)) k) as [b|] eqn:N; [|intros [= <- <-]; auto].
    destruct r as [| |ok input]; try (intros [= <- <-]; exact Hp).
    destruct (auth_client token ok input) as [[[| | |] w] rest]; try (intros [= <- <-]; exact Hp).
    unfold sb_connected. cbv zeta. cbn [sb_set_tasks sb_pubs sb_next sb_topics sb_cmdq sb_out sb_dropped sb_tasks sb_stats sb_conns].
    destruct (mget b (sb_pubs s)) as [[c|bb]|]; try (destruct (sb_greet _ _ _) as [x o1] eqn:G); intros [= <- <-]; cbn [sb_pubs sb_tasks sb_stats sb_set_tasks]; [exact Hp|..];
      rewrite !mget_set; destruct (eq_dec a b); auto; right; discriminate.
  - unfold sb_call. destruct (sb_dropped s); [intros [= <- <-]; auto|]. destruct (api_command f); [destruct (_ <? _)|]; intros [= <- <-]; auto.
  - unfold sb_take. destruct (sb_out s) as [|[[[c b] t] p] q]; intros [= <- <-]; auto.
  - unfold sb_drop. destruct (sb_dropped s); intros [= <- <-]; auto.
Qed.
Lemma run_stale a evs s L : run sb_init evs = (s, L) -> ~ In (UGaveUp a) L -> mget a (sb_stats s) = None \/ mget a (sb_pubs s) <> None.
Proof.
  intros R. refine (run_inv token ingress initial D (fun L s => ~ In (UGaveUp a) L -> mget a (sb_stats s) = None \/ mget a (sb_pubs s) <> None) _ _ evs s L R).
  - intros _. now left.
  - intros L0 s0 ev o s' HS IH H N. rewrite in_app_iff in N. eapply act_stale; eauto.
Qed.
End P.
