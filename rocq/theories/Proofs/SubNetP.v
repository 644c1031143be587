(** Subscriber socket: which connection a step is about (for Model/PubSubNet.v). *)
From Coq Require Import ZArith Permutation.
From Verif Require Import Model.Base Model.Map Model.Framed Model.WirePubSub Model.WireAuth Model.Compression Model.Handshake Model.JoinMap Model.Backoff Model.Trie Model.PubDriver Model.SubDriver
  Spec.SubSpec Spec.NetSpec2 Proofs.BaseP Proofs.MapP Proofs.SubDriverP.
Local Open Scope N_scope.

Definition cment (c : N) (x : uout) : Prop := match x with UWire c' _ _ | URecv c' _ _ _ => c' = c | _ => False end.
Definition csubject (s : sb) (ev : sb_event) : option N := match ev with YSess c _ => Some c | _ => None end.
(** Frames the connection took. *)
Notation wok_on := written_on.
Lemma wok_on_app c a b : wok_on c (a ++ b) = wok_on c a ++ wok_on c b. Proof. apply flat_map_app. Qed.
Lemma rcv_on_app c a b : received_on c (a ++ b) = received_on c a ++ received_on c b. Proof. apply flat_map_app. Qed.
Lemma con_none c os : (forall x, In x os -> ~ cment c x) -> wok_on c os = [] /\ received_on c os = [].
Proof.
  induction os as [|x os IH]; intros H; [auto|]. destruct IH as [I1 I2]; [intros y Hy; apply H; right; exact Hy|]. specialize (H x (or_introl eq_refl)).
  cbn [wok_on received_on flat_map]. fold (wok_on c os) (received_on c os). rewrite I1, I2.
  destruct x as [| | | | | | | | | |c' m [|]|c' m now r| | | | | | | | | |]; cbn in *; auto; destruct (eq_dec c' c); auto; contradiction.
Qed.

Definition dull (o : list uout) : Prop := forall x, In x o -> forall c, ~ cment c x.
Lemma dull_nil : dull []. Proof. intros x []. Qed.
Lemma dull_one x : (forall c, ~ cment c x) -> dull [x]. Proof. intros H y [<-|[]]. exact H. Qed.
Lemma dull_app a b : dull a -> dull b -> dull (a ++ b). Proof. intros A B x Hx. apply in_app_or in Hx. destruct Hx; auto. Qed.
Lemma dull_cons x b : (forall c, ~ cment c x) -> dull b -> dull (x :: b). Proof. intros A B y [<-|Hy]; auto. Qed.

Section A.
Variables (token : option bytes) (ingress initial : N) (D : decompressors).
Notation act := (sb_act token ingress initial D).

Lemma sub_snoc s evs ev : sb_run token ingress initial D s (evs ++ [ev]) = let (s1, o1) := sb_run token ingress initial D s evs in let (s2, o2) := act s1 ev in (s2, o1 ++ o2).
Proof using.
  revert s. induction evs as [|e evs IH]; intros s; cbn [app sb_run].
  - destruct (act s ev) as [s2 o2]. rewrite app_nil_r. reflexivity.
  - destruct (act s e) as [s1 o1]. rewrite IH. destruct (sb_run token ingress initial D s1 evs) as [s2 o2]. destruct (act s2 ev) as [s3 o3]. rewrite app_assoc. reflexivity.
Qed.

Lemma release_dull st s : dull (snd (sb_release st s)) /\ sb_next (fst (sb_release st s)) = sb_next s.
Proof using. unfold sb_release. destruct st as [[cid|b]|]; try (split; [apply dull_nil|reflexivity]). destruct (mget cid (sb_conns s)); cbn [fst snd]; split; try reflexivity; [apply dull_one; auto|apply dull_nil]. Qed.
Lemma reset_dull a s : dull (snd (sb_reset initial a s)) /\ sb_next (fst (sb_reset initial a s)) = sb_next s.
Proof using. unfold sb_reset. destruct (release_dull (mget a (sb_pubs s)) s) as [R1 R2]. destruct (sb_release (mget a (sb_pubs s)) s) as [s1 o]. cbn [fst snd] in *. split; [|exact R2]. apply dull_app; [exact R1|apply dull_one; auto]. Qed.
Lemma tell_dull c l : forall s, dull (snd (sb_tell initial c l s)) /\ sb_next (fst (sb_tell initial c l s)) = sb_next s.
Proof using.
  induction l as [|[a [cid|b]] l IH]; intros s; cbn [sb_tell]; [split; [apply dull_nil|reflexivity]| |apply IH].
  destruct (mget cid (sb_conns s)) as [x|]; [|apply IH]. destruct (sc_try c x) as [x' r]. set (s1 := sb_set_conns s _).
  assert (X : exists s2 o2, match r with TClosed => sb_reset initial a s1 | _ => (s1, []) end = (s2, o2) /\ dull o2 /\ sb_next s2 = sb_next s).
  { destruct r; try (eexists _, _; split; [reflexivity|]; split; [apply dull_nil|reflexivity]). destruct (reset_dull a s1) as [R1 R2]. destruct (sb_reset initial a s1) as [s2 o2]. eexists _, _; split; [reflexivity|]. auto. }
  destruct X as (s2 & o2 & -> & X1 & X2). specialize (IH s2). destruct (sb_tell initial c l s2) as [s3 o3]. cbn [fst snd] in *. destruct IH as [I1 I2]. split; [|congruence]. apply dull_cons; [auto|]. apply dull_app; assumption.
Qed.
Lemma connect_dull a s : dull (snd (sb_connect a s)) /\ sb_next (fst (sb_connect a s)) = sb_next s.
Proof using. unfold sb_connect. destruct (jm_spawn a (sb_tasks s)) as [j st]. cbn [fst snd]. split; [|reflexivity]. destruct st; [apply dull_one; auto|apply dull_nil]. Qed.
Lemma command_dull c s : dull (snd (sb_command initial c s)) /\ sb_next (fst (sb_command initial c s)) = sb_next s.
Proof using.
  destruct c as [t|t|a|a|]; cbn [sb_command].
  - destruct (smem t (sb_topics s)); [split; [apply dull_nil|reflexivity]|]. exact (tell_dull (SSub t) _ (sb_set_topics s (sins t (sb_topics s)))).
  - destruct (smem t (sb_topics s)); [|split; [apply dull_nil|reflexivity]]. exact (tell_dull (SUnsub t) _ (sb_set_topics s (sdel t (sb_topics s)))).
  - destruct (mem a (sb_pubs s)); [split; [apply dull_nil|reflexivity]|]. destruct (connect_dull a s) as [C1 C2]. destruct (sb_connect a s) as [s1 o1]. cbn [fst snd] in *. destruct (reset_dull a s1) as [R1 R2]. destruct (sb_reset initial a s1) as [s2 o2]. cbn [fst snd] in *.
    split; [apply dull_app; assumption|congruence].
  - destruct (mget a (sb_pubs s)) as [st|]; [|split; [apply dull_nil|reflexivity]]. destruct (release_dull (Some st) s) as [R1 R2]. destruct (sb_release (Some st) s) as [s1 o1]. cbn [fst snd] in *. split; [exact R1|exact R2].
  - split; [apply dull_nil|reflexivity].
Qed.
Lemma greet_dull cid ts : forall x, dull (snd (sb_greet cid ts x)).
Proof using. induction ts as [|t ts IH]; intros x; cbn [sb_greet]; [apply dull_nil|]. destruct (sc_try (SSub t) x) as [x1 r]. specialize (IH x1). destruct (sb_greet cid ts x1) as [x2 o]. cbn [snd] in *. apply dull_cons; [auto|exact IH]. Qed.

(** Every step but those of the sessions. *)
Lemma act_dull s ev s' o : act s ev = (s', o) -> (forall c e, ev <> YSess c e) ->
  dull o /\ (sb_next s' = sb_next s \/ (exists k ok i order, ev = YJoin k (JConn ok i) order) /\ sb_next s' = sb_next s + 1).
Proof using.
  intros A Ns. destruct ev as [c e|a now| |k r order|f| |]; cbn [sb_act] in A; [exfalso; eapply Ns; reflexivity|..].
  - destruct (sb_entry ingress initial D a now s) as [[s1 o1] b] eqn:E. inversion A; subst; clear A. unfold sb_entry in E. destruct (mget a (sb_pubs s)) as [[cid|b0]|]; [|..|inversion E; subst; split; [apply dull_nil|auto]].
    + destruct (mget cid (sb_conns s)) as [x|]; [|inversion E; subst; split; [apply dull_nil|auto]]. destruct (sc_in x) as [|m rest].
      * destruct (sc_alive x); [inversion E; subst; split; [apply dull_nil|auto]|]. destruct (reset_dull a s) as [R1 R2]. destruct (sb_reset initial a s) as [s2 o2]. inversion E; subst. auto.
      * destruct (try_decompress D _ _); [|inversion E; subst; split; [apply dull_one; auto|auto]]. unfold sb_pass in E. destruct (sb_dropped _); [|destruct (_ <? _)]; inversion E; subst; (split; [apply dull_one; auto|left; reflexivity]).
    + destruct (bo_poll now b0) as [b' [n| | |]]; try (inversion E; subst; split; [apply dull_nil|auto]).
      * destruct (jm_contains a (sb_tasks s)); [inversion E; subst; split; [apply dull_nil|auto]|]. match type of E with context [sb_connect a ?s1] => destruct (connect_dull a s1) as [C1 C2]; destruct (sb_connect a s1) as [s2 o2] end. inversion E; subst. auto.
      * inversion E; subst. split; [apply dull_one; auto|auto].
  - destruct (sb_next_command initial s) as [[s1 o1] b] eqn:E. inversion A; subst; clear A. unfold sb_next_command in E. destruct (sb_cmdq s) as [|c q]; [inversion E; subst; split; [apply dull_nil|auto]|].
    destruct (command_dull c (sb_set_cmdq s q)) as [C1 C2]. destruct (sb_command initial c (sb_set_cmdq s q)) as [s2 o2]. inversion E; subst. cbn [fst snd] in *. split; [apply dull_cons; auto|left; exact C2].
  - destruct (sb_join token k r order s) as [[s1 o1] b] eqn:E. inversion A; subst; clear A. unfold sb_join in E. destruct (nth_error (jm_tasks (sb_tasks s)) k) as [a|]; [|inversion E; subst; split; [apply dull_nil|auto]].
    destruct r as [| |ok input]; [inversion E; subst; split; [apply dull_one; auto|auto]..|].
    destruct (auth_client token ok input) as [[[| | |] w] rest]; try (inversion E; subst; split; [first [apply dull_nil|apply dull_one; auto]|auto]; fail).
    set (sx := sb_set_tasks s _) in *. destruct (sb_connected a order sx) as [s2 o2] eqn:C. inversion E; subst. clear E.
    unfold sb_connected in C. assert (K : sb_next sx = sb_next s) by reflexivity.
    destruct (mget a (sb_pubs sx)) as [[cid|b0]|]; [inversion C; subst; split; [apply dull_one; auto|left; reflexivity]|..];
    (pose proof (greet_dull (sb_next sx) (arrange order (sb_topics sx)) (sc_new a)) as G; destruct (sb_greet (sb_next sx) (arrange order (sb_topics sx)) (sc_new a)) as [x og]; inversion C; subst; cbn [snd] in G; split; [apply dull_cons; auto|right; split; [eauto|reflexivity]]).
  - unfold sb_call in A. destruct (sb_dropped s); [inversion A; subst; split; [apply dull_nil|auto]|]. destruct (api_command f); [destruct (_ <? _)|]; inversion A; subst; (split; [apply dull_one; auto|auto]).
  - unfold sb_take in A. destruct (sb_out s) as [|[[[c a] t] p] q]; inversion A; subst; (split; [first [apply dull_nil|apply dull_one; auto]|auto]).
  - unfold sb_drop in A. destruct (sb_dropped s); inversion A; subst; (split; [first [apply dull_nil|apply dull_one; auto]|auto]).
Qed.

(** A session. *)
Lemma eg_ment cid : forall eg ans e o p f, eg_loop cid eg ans = (e, o, p, f) -> (forall x, In x o -> forall c, cment c x -> c = cid) /\ received_on cid o = [].
Proof using.
  induction eg as [|m eg IH]; intros ans e o p f; cbn [eg_loop]; [intros H; inversion H; subst; split; [intros ? []|reflexivity]|].
  destruct ans as [|[| |] ans]; try (intros H; inversion H; subst; split; [intros x [<-|[]] c M; contradiction|reflexivity]).
  - destruct (eg_loop cid eg ans) as [[[e1 o1] p1] f1] eqn:E. destruct (IH _ _ _ _ _ E) as [I1 I2]. intros H; inversion H; subst. split; [|exact I2]. intros x [<-|Hx] c M; [symmetry; exact M|eapply I1; eauto].
  - destruct (eg_loop cid eg ans) as [[[e1 o1] p1] f1] eqn:E. destruct (IH _ _ _ _ _ E) as [I1 I2]. intros H; inversion H; subst. split; [|exact I2]. intros x [<-|Hx] c M; [symmetry; exact M|eapply I1; eauto].
Qed.
Lemma sess_ment s c e s' o : act s (YSess c e) = (s', o) ->
  (forall x, In x o -> forall c', cment c' x -> c' = c) /\ sb_next s' = sb_next s /\
  (forall x, mget c (sb_conns s) = Some x -> sc_alive x = true -> received_on c o = match y_next e with PnMsg m => [m] | _ => [] end).
Proof using.
  cbn [sb_act]. unfold sb_session. destruct (mget c (sb_conns s)) as [x|]; [|intros H; inversion H; subst; split; [intros ? []|split; [reflexivity|discriminate]]].
  destruct (sc_alive x) eqn:Al; [|intros H; inversion H; subst; split; [intros ? []|split; [reflexivity|intros ? G; inversion G; subst; congruence]]].
  destruct (ss_iter c e x) as [[x' o1] r] eqn:It. intros H; inversion H; subst; clear H.
  assert (K : (forall y, In y o -> forall c', cment c' y -> c' = c) /\ received_on c o = match y_next e with PnMsg m => [m] | _ => [] end).
  { unfold ss_iter in It. set (x0 := sc_set_egress x _ _) in *. clearbody x0.
    assert (Z : forall eg o1 progress f, eg_loop c (sc_egress x0) (y_sends e) = (eg, o1, progress, f) -> forall t, (forall y, In y t -> forall c', ~ cment c' y) ->
       (forall y, In y (o1 ++ t) -> forall c', cment c' y -> c' = c) /\ received_on c (o1 ++ t) = []).
    { intros eg o1 progress f Eg t Ht. destruct (eg_ment _ _ _ _ _ _ _ Eg) as [E1 E2]. split; [intros y Hy c' M; apply in_app_or in Hy; destruct Hy as [Hy|Hy]; [eapply E1; eauto|exfalso; eapply Ht; eauto]|]. rewrite rcv_on_app, E2. cbn [app]. apply con_none. intros y Hy. apply Ht, Hy. }
    destruct (y_next e) as [m| | |].
    - unfold ss_incoming in It. destruct (negb (sc_held x0)); [|destruct (blen (sc_in x0) <? IN_CAP)]; inversion It; subst; cbn [received_on flat_map app]; (split; [intros y [<-|[]] c' M; symmetry; exact M|destruct (eq_dec c c); [reflexivity|congruence]]).
    - inversion It; subst. split; [intros y [<-|[]] c' M; contradiction|reflexivity].
    - destruct (eg_loop c (sc_egress x0) (y_sends e)) as [[[eg o1] progress] f] eqn:Eg. specialize (Z _ _ _ _ eq_refl).
      destruct progress; [inversion It; subst; rewrite <- (app_nil_r o); apply Z; intros ? []|]. cbn [sc_set_egress sc_cmds sc_held] in It.
      destruct (sc_cmds x0) as [|cm cs]; [destruct (sc_held x0)|destruct (cmd_frame (y_now e) cm)]; inversion It; subst; try (rewrite <- (app_nil_r o); apply Z; intros ? []); apply Z; intros y [<-|[<-|[]]] || intros y [<-|[]]; auto.
    - destruct (eg_loop c (sc_egress x0) (y_sends e)) as [[[eg o1] progress] f] eqn:Eg. specialize (Z _ _ _ _ eq_refl).
      destruct progress; [inversion It; subst; rewrite <- (app_nil_r o); apply Z; intros ? []|]. cbn [sc_set_egress sc_cmds sc_held] in It.
      destruct (sc_cmds x0) as [|cm cs]; [destruct (sc_held x0)|destruct (cmd_frame (y_now e) cm)]; inversion It; subst; try (rewrite <- (app_nil_r o); apply Z; intros ? []); apply Z; intros y [<-|[<-|[]]] || intros y [<-|[]]; auto. }
  split; [apply K|]. split; [reflexivity|]. intros; apply K.
Qed.
End A.
