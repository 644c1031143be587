(** Subscriber: facts for the theorems, in terms of the log. *)
From Coq Require Import ZArith ZifyBool ZifyNat ZifyN Permutation.
From Verif Require Import Model.Base Model.Map Model.WirePubSub Model.Compression Model.Stats Model.Framed Model.WireAuth
  Model.Handshake Model.Utf8 Model.Backoff Model.JoinMap Model.PubDriver Model.SubDriver Spec.ReqSpec Spec.SubSpec Proofs.BaseP Proofs.MapP Proofs.SubDriverP Proofs.SubDriverP2 Proofs.SubDriverP3 Proofs.SubDriverP4 Proofs.SubDriverP5 Proofs.SubDriverP6 Proofs.SubDriverP7 Proofs.SubDriverP8.
Local Open Scope N_scope.

Lemma about_open c a : about c (UOpen c a) = true. Proof. cbn. destruct (eq_dec c c); congruence. Qed.
Lemma closed_on cid L : closedL cid (on cid L) <-> driver_closed cid L.
Proof.
  unfold closedL, driver_closed.
  assert (A : forall l, about cid (UClosed cid l) = true) by (intros l; cbn; destruct (eq_dec cid cid); congruence).
  split; intros [l H]; exists l; [rewrite in_on in H by apply A|rewrite in_on by apply A]; exact H.
Qed.
Lemma ended_on cid L : endedL cid (on cid L) <-> session_ended cid L.
Proof. unfold endedL, session_ended. rewrite !in_on; [tauto|cbn; destruct (eq_dec cid cid); congruence..]. Qed.

Lemma subseq_refl {A} (l : list A) : subseq l l. Proof. induction l; constructor; auto. Qed.
Lemma subseq_trans {A} (c b : list A) : subseq b c -> forall a, subseq a b -> subseq a c.
Proof.
  induction 1 as [l|x b c H IH|x b c H IH]; intros a Ha.
  - inversion Ha. constructor.
  - inversion Ha; subst; [constructor|constructor; auto|constructor; auto].
  - constructor. auto.
Qed.
Lemma subseq_prefix {A} (a b : list A) : subseq a (a ++ b). Proof. induction a; cbn; constructor; auto. Qed.
Lemma subseq_app {A} (b b' : list A) : forall a a', subseq a a' -> subseq b b' -> subseq (a ++ b) (a' ++ b').
Proof.
  intros a a' H Hb. induction H as [l|x l l' H IH|x l l' H IH]; cbn.
  - induction l; cbn; [exact Hb|constructor; auto].
  - constructor. exact IH.
  - constructor. exact IH.
Qed.
Lemma subseq_map {A B} (f : A -> B) (l' : list B) : forall l, subseq l' (map f l) -> exists m, subseq m l /\ l' = map f m.
Proof.
  intros l. remember (map f l) as r eqn:E. intros H. revert l E. induction H as [r|x a b H IH|x a b H IH]; intros l E.
  - exists []. split; [constructor|reflexivity].
  - destruct l as [|y l]; [discriminate|]. injection E as -> E. destruct (IH l E) as (m & Hm & ->). exists (y :: m). split; [constructor; auto|reflexivity].
  - destruct l as [|y l]; [discriminate|]. injection E as -> E. destruct (IH l E) as (m & Hm & ->). exists m. split; [constructor; auto|reflexivity].
Qed.

Lemma accepted_subseq cid L : subseq (accepted cid L) (received_on cid L).
Proof.
  induction L as [|z L IH]; cbn [accepted received_on flat_map]; [constructor|]. apply subseq_app; [|exact IH].
  destruct z; try apply subseq_refl. destruct (eq_dec cid0 cid), r; try apply subseq_refl; constructor.
Qed.

Definition queued_on (cid : N) (L : list uout) : list (addr * bytes * bytes) :=
  flat_map (fun x => match x with UDeliver c m a p TSent => if eq_dec c cid then [(a, tm_topic m, p)] else [] | _ => [] end) L.
Lemma queued_on_filter cid L : queued_on cid L = flat_map (fun q => match q with (c, a, t, p) => if eq_dec c cid then [(a, t, p)] else [] end) (queued L).
Proof.
  unfold queued_on, queued. induction L as [|z L IH]; cbn [flat_map]; [reflexivity|]. rewrite flat_map_app, <- IH. f_equal. destruct z; try reflexivity. destruct r; try reflexivity. cbn. now rewrite app_nil_r.
Qed.
Lemma yielded_filter cid L : yielded cid L = flat_map (fun q => match q with (c, a, t, p) => if eq_dec c cid then [(a, t, p)] else [] end) (yields L).
Proof.
  unfold yielded, yields. induction L as [|z L IH]; cbn [flat_map]; [reflexivity|]. rewrite flat_map_app, <- IH. f_equal. destruct z; try reflexivity. cbn. now rewrite app_nil_r.
Qed.

Lemma queued_images cid (P : tmsg -> addr -> bytes -> Prop) : forall L, (forall m a p r, In (UDeliver cid m a p r) L -> P m a p) ->
  exists ts, subseq ts (taken cid L) /\ Forall2 (fun m q => match q with (a, t, p) => t = tm_topic m /\ P m a p end) ts (queued_on cid L).
Proof.
  induction L as [|z L IH]; intros H; [exists []; split; constructor|]. destruct IH as (ts & Hs & Hf); [intros; eapply H; right; eauto|].
  unfold queued_on, taken. cbn [flat_map]. fold (queued_on cid L). fold (taken cid L).
  destruct z; try (exists ts; split; [exact Hs|exact Hf]).
  - destruct (eq_dec cid0 cid); cbn [app]; [|exists ts; auto]. exists ts. split; [constructor; exact Hs|exact Hf].
  - destruct (eq_dec cid0 cid) as [->|Ne]; cbn [app].
    2:{ exists ts. split; [exact Hs|]. destruct r; exact Hf. }
    destruct r; cbn [app]; [|exists ts; split; [constructor; exact Hs|exact Hf]..].
    exists (m :: ts). split; [constructor; exact Hs|]. constructor; [|exact Hf]. split; [reflexivity|]. eapply H. left. reflexivity.
Qed.

Section P.
Variables (token : option bytes) (ingress initial : N) (D : decompressors).
Notation act := (sb_act token ingress initial D).
Notation run := (sb_run token ingress initial D).

(** The state of a connection, from the log. *)
Lemma open_state evs s L cid a : run sb_init evs = (s, L) -> In (UOpen cid a) L ->
  exists x, mget cid (sb_conns s) = Some x /\ sc_addr x = a /\ (sc_alive x = false <-> session_ended cid L) /\ (sc_held x = false <-> driver_closed cid L) /\
  (sc_held x = true -> mget a (sb_pubs s) = Some (PActive cid)).
Proof.
  intros R H. pose proof (run_connI token ingress initial D cid _ _ _ R) as CI. pose proof (run_SI _ _ _ _ _ _ _ R) as HS.
  apply (in_on cid) in H; [|apply about_open]. pose proof (ci_life _ _ _ _ CI) as Li. unfold lifeI in Li. destruct (mget cid (sb_conns s)) as [x|] eqn:G; [|rewrite Li in H; destruct H].
  destruct Li as ((L' & E & F) & A & B). rewrite E in H. exists x. split; [reflexivity|].
  assert (Ea : sc_addr x = a). { destruct H as [H|H]; [congruence|]. rewrite Forall_forall in F. specialize (F _ H). discriminate. }
  split; [exact Ea|]. rewrite <- ended_on, <- closed_on. split; [exact A|]. split; [exact B|]. intros Hh. rewrite <- Ea. exact (si_held _ HS _ _ G Hh).
Qed.
Lemma open_split L cid a : In (UOpen cid a) L -> exists b r, L = b ++ UOpen cid a :: r.
Proof. apply in_split. Qed.
Lemma open_once evs s L cid a b : run sb_init evs = (s, L) -> In (UOpen cid a) L -> In (UOpen cid b) L -> a = b.
Proof. intros R H1 H2. destruct (open_state _ _ _ _ _ R H1) as (x & G & <- & _). destruct (open_state _ _ _ _ _ R H2) as (y & G2 & <- & _). congruence. Qed.

Lemma deliver_facts evs s L cid m a p r : run sb_init evs = (s, L) -> In (UDeliver cid m a p r) L -> In (UOpen cid a) L /\ try_decompress D (tm_ctype m) (tm_payload m) = Some p.
Proof.
  intros R H. pose proof (run_connI token ingress initial D cid _ _ _ R) as CI. apply in_split in H. destruct H as (b & z & ->).
  destruct (ci_ent _ _ _ _ CI (on cid b) (UDeliver cid m a p r) (on cid z)) as (A & b' & Eb).
  { apply split_on. cbn. destruct (eq_dec cid cid); congruence. }
  split; [|exact A]. apply in_or_app. left. apply (in_on cid); [apply about_open|]. rewrite Eb. now left.
Qed.

(** ** Registered statistics *)
Lemma command_stats c s s' o : sb_command initial c s = (s', o) -> forall a k, mget a (sb_stats s') = Some k -> mget a (sb_stats s) = Some k.
Proof.
  destruct c as [t|t|b|b|]; cbn [sb_command]; cbv zeta.
  - destruct (smem _ _); [intros [= <- <-]; auto|]. intros H. destruct (tell_pubs _ _ _ _ _ _ H) as [_ ->]. auto.
  - destruct (smem _ _); [|intros [= <- <-]; auto]. intros H. destruct (tell_pubs _ _ _ _ _ _ H) as [_ ->]. auto.
  - destruct (mem _ _); [intros [= <- <-]; auto|]. unfold sb_connect. destruct (jm_spawn _ _). destruct (sb_reset initial b _) as [s2 o2] eqn:R. intros [= <- <-]. destruct (reset_pubs _ _ _ _ _ R) as [_ ->]. auto.
  - destruct (mget b (sb_pubs s)); [|intros [= <- <-]; auto]. destruct (sb_release _ _) as [s1 o1] eqn:R. intros [= <- <-] a k. cbn [sb_set_stats sb_set_pubs sb_stats]. destruct (release_pubs _ _ _ _ R) as [_ ->].
    rewrite mget_del. destruct (eq_dec a b); [discriminate|auto].
  - intros [= <- <-]; auto.
Qed.
Lemma command_stats2 c s s' o a : sb_command initial c s = (s', o) -> c <> CDisconnect a -> mget a (sb_stats s') = mget a (sb_stats s).
Proof.
  destruct c as [t|t|b|b|]; cbn [sb_command]; cbv zeta; intros H Ne; revert H.
  - destruct (smem _ _); [intros [= <- <-]; auto|]. intros H. destruct (tell_pubs _ _ _ _ _ _ H) as [_ ->]. auto.
  - destruct (smem _ _); [|intros [= <- <-]; auto]. intros H. destruct (tell_pubs _ _ _ _ _ _ H) as [_ ->]. auto.
  - destruct (mem _ _); [intros [= <- <-]; auto|]. unfold sb_connect. destruct (jm_spawn _ _). destruct (sb_reset initial b _) as [s2 o2] eqn:R. intros [= <- <-]. destruct (reset_pubs _ _ _ _ _ R) as [_ ->]. auto.
  - destruct (mget b (sb_pubs s)); [|intros [= <- <-]; auto]. destruct (sb_release _ _) as [s1 o1] eqn:R. intros [= <- <-]. cbn [sb_set_stats sb_set_pubs sb_stats]. destruct (release_pubs _ _ _ _ R) as [_ ->].
    apply mget_del_ne. congruence.
  - intros [= <- <-]; auto.
Qed.

Lemma act_stats s ev s' o : SI s -> act s ev = (s', o) ->
  (noopen o /\ (forall a k, mget a (sb_stats s') = Some k -> mget a (sb_stats s) = Some k) /\ (forall a, ~ In (CDisconnect a) (commands o) -> mget a (sb_stats s') = mget a (sb_stats s))) \/
  (exists k a o1, o = UOpen k a :: o1 /\ noopen o1 /\ sb_stats s' = mset a k (sb_stats s)).
Proof.
  intros HS H. destruct (act_open token ingress initial D _ _ _ _ HS H) as [N|(k0 & a0 & order0 & o1 & x0 & s0 & Nc & -> & N & _)].
  - left. split; [exact N|]. destruct (act_cmd token ingress initial D _ _ _ _ H) as [Hc|(-> & c & q & o' & Eq & Ec & -> & _)].
    2:{ split; [intros a k Hk; exact (command_stats _ _ _ _ Ec a k Hk)|]. intros a Hn. apply (command_stats2 _ _ _ _ a Ec). intros ->. apply Hn. now left. }
    assert (E : sb_stats s' = sb_stats s); [|rewrite E; auto].
    destruct ev as [cid e|b now| |k r order|f| |]; cbn [sb_act] in H.
    + unfold sb_session in H. destruct (mget cid (sb_conns s)) as [x|]; [|injection H as <- <-; auto]. destruct (sc_alive x); [|injection H as <- <-; auto]. destruct (ss_iter cid e x) as [[x' o'] r']. injection H as <- <-. reflexivity.
    + unfold sb_entry in H. destruct (mget b (sb_pubs s)) as [[cid|bo]|]; [| |injection H as <- <-; auto].
      * destruct (mget cid (sb_conns s)) as [x|]; [|injection H as <- <-; auto]. destruct (sc_in x) as [|m rest].
        -- destruct (sc_alive x); [injection H as <- <-; auto|]. destruct (sb_reset initial b s) as [s1 o1] eqn:R. injection H as <- <-. apply (reset_pubs _ _ _ _ _ R).
        -- cbv zeta in H. destruct (try_decompress _ _ _) as [p|]; [|injection H as <- <-; auto]. unfold sb_pass in H. cbn [sb_set_conns sb_dropped sb_out] in H. destruct (sb_dropped s); [|destruct (_ <? _)]; injection H as <- <-; auto.
      * destruct (bo_poll now bo) as [b' [d| | |]]; try (injection H as <- <-; auto; fail). cbv zeta in H. destruct (jm_contains b (sb_tasks s)); [injection H as <- <-; auto|].
        unfold sb_connect in H. destruct (jm_spawn _ _) as [jj w]. injection H as <- <-. reflexivity.
    + unfold sb_next_command in H. destruct (sb_cmdq s); [injection H as <- <-; auto|]. destruct (sb_command _ _ _). injection H as <- <-. discriminate.
    + unfold sb_join in H. destruct (nth_error (jm_tasks (sb_tasks s)) k) as [b|]; [|injection H as <- <-; auto].
      destruct r as [| |ok input]; try (injection H as <- <-; auto; fail). destruct (auth_client token ok input) as [[[| | |] w] rest]; try (injection H as <- <-; auto; fail).
      unfold sb_connected in H. cbv zeta in H. cbn [sb_set_tasks sb_pubs sb_next sb_topics sb_cmdq sb_out sb_dropped sb_tasks sb_stats sb_conns] in H.
      destruct (mget b (sb_pubs s)) as [[cc|bb]|]; try (destruct (sb_greet _ _ _) as [x o1] eqn:Gr); injection H as <- <-; auto; exfalso; eapply N; now left.
    + unfold sb_call in H. destruct (sb_dropped s); [injection H as <- <-; auto|]. destruct (api_command f); [destruct (_ <? _)|]; injection H as <- <-; auto.
    + unfold sb_take in H. destruct (sb_out s) as [|[[[cc b] t] p] q]; injection H as <- <-; auto.
    + unfold sb_drop in H. destruct (sb_dropped s); injection H as <- <-; auto.
  - right. exists k0, a0, o1. split; [reflexivity|]. split; [exact N|].
    destruct ev as [cid e|b now| |k r order|f| |]; cbn [sb_act] in H.
    + exfalso. unfold sb_session in H. destruct (mget cid (sb_conns s)) as [x|]; [|discriminate]. destruct (sc_alive x); [|discriminate]. destruct (ss_iter cid e x) as [[x' o'] r'] eqn:E. injection H as _ ->.
      destruct (ss_iter_plain _ _ _ _ _ _ E) as (_ & A & _). eapply ended_noopen; [exact A|now left].
    + exfalso. unfold sb_entry in H. destruct (mget b (sb_pubs s)) as [[cid|bo]|]; [| |discriminate].
      * destruct (mget cid (sb_conns s)) as [x|]; [|discriminate]. destruct (sc_in x) as [|m rest].
        -- destruct (sc_alive x); [discriminate|]. destruct (sb_reset initial b s) as [s1 o2] eqn:R. injection H as _ ->. destruct (reset_plain _ _ _ _ _ R) as [(_ & A & _) _]. eapply ended_noopen; [exact A|now left].
        -- cbv zeta in H. destruct (try_decompress _ _ _) as [p|]; [|discriminate]. unfold sb_pass in H. cbn [sb_set_conns sb_dropped sb_out] in H. destruct (sb_dropped s); [|destruct (_ <? _)]; discriminate.
      * destruct (bo_poll now bo) as [b' [d| | |]]; try discriminate. cbv zeta in H. destruct (jm_contains b (sb_tasks s)); [discriminate|].
        unfold sb_connect in H. destruct (jm_spawn _ _) as [jj [|]]; discriminate.
    + congruence.
    + unfold sb_join in H. destruct (nth_error (jm_tasks (sb_tasks s)) k) as [b|]; [|discriminate].
      destruct r as [| |ok input]; try discriminate. destruct (auth_client token ok input) as [[[| | |] w] rest]; try discriminate.
      unfold sb_connected in H. cbv zeta in H. cbn [sb_set_tasks sb_pubs sb_next sb_topics sb_cmdq sb_out sb_dropped sb_tasks sb_stats sb_conns] in H.
      destruct (mget b (sb_pubs s)) as [[cc|bb]|]; try (destruct (sb_greet _ _ _) as [x o2] eqn:Gr); try discriminate; injection H as <- <- <- _; reflexivity.
    + exfalso. unfold sb_call in H. destruct (sb_dropped s); [discriminate|]. destruct (api_command f); [destruct (_ <? _)|]; discriminate.
    + exfalso. unfold sb_take in H. destruct (sb_out s) as [|[[[cc b] t] p] q]; discriminate.
    + exfalso. unfold sb_drop in H. destruct (sb_dropped s); discriminate.
Qed.

Definition STI (L : list uout) (s : sb) : Prop :=
  (forall a c, mget a (sb_stats s) = Some c -> exists b r, L = b ++ UOpen c a :: r /\ (forall k, ~ In (UOpen k a) r)) /\
  (forall a b c r, L = b ++ UOpen c a :: r -> ~ In (CDisconnect a) (commands r) -> mget a (sb_stats s) <> None).
Lemma run_STI evs s L : run sb_init evs = (s, L) -> STI L s.
Proof.
  intros R. refine (run_inv token ingress initial D STI _ _ evs s L R).
  - split; [discriminate|]. intros a b c r E. destruct b; discriminate.
  - clear. intros L s ev o s' HS [I1 I2] H. destruct (act_stats _ _ _ _ HS H) as [(N & Hs & Hd)|(k & a & o1 & -> & N & Es)].
    + split.
      * intros a c Hc. apply Hs in Hc. destruct (I1 _ _ Hc) as (b & r & -> & Hr). exists b, (r ++ o). split; [now rewrite <- app_assoc|]. intros k Hk. apply in_app_or in Hk. destruct Hk as [Hk|Hk]; [exact (Hr k Hk)|exact (N _ _ Hk)].
      * intros a b c r E Hn. destruct (PubDriverP2.split_app_list o _ _ _ _ E) as [(a' & -> & ->)|(b' & a' & -> & _ & _)].
        -- rewrite commands_app, in_app_iff in Hn. rewrite Hd by tauto. eapply I2; [reflexivity|tauto].
        -- exfalso. eapply N. apply in_or_app. right. now left.
    + split.
      * intros a' c. rewrite Es, mget_set. destruct (eq_dec a' a) as [->|Ne].
        -- intros [= <-]. exists L, o1. split; [reflexivity|]. intros k' Hk. exact (N _ _ Hk).
        -- intros Hc. destruct (I1 _ _ Hc) as (b & r & -> & Hr). exists b, (r ++ UOpen k a :: o1). split; [now rewrite <- app_assoc|]. intros k' Hk. apply in_app_or in Hk. destruct Hk as [Hk|[Hk|Hk]]; [exact (Hr k' Hk)|congruence|exact (N _ _ Hk)].
      * intros a' b c r E Hn. rewrite Es, mget_set. destruct (eq_dec a' a) as [->|Ne]; [discriminate|].
        destruct (PubDriverP2.split_app_list _ _ _ _ _ E) as [(z & -> & ->)|(b' & z & E2 & _ & _)].
        -- rewrite commands_app, in_app_iff in Hn. eapply I2; [reflexivity|tauto].
        -- exfalso. destruct b' as [|y b']; cbn in E2; [congruence|]. injection E2 as _ E2. apply (N c a'). rewrite E2. apply in_or_app. right. now left.
Qed.

(** ** Disconnecting *)
Lemma disconnect_closes evs s L1 L2 a k : run sb_init evs = (s, L1 ++ UCmd (CDisconnect a) :: L2) -> In (UOpen k a) L1 -> driver_closed k (L1 ++ UCmd (CDisconnect a) :: L2).
Proof.
  intros R H. destruct (run_split token ingress initial D _ _ _ _ _ _ R) as (evs1 & evs2 & s1 & q & s2 & o & L3 & -> & R1 & Eq & Ec & -> & R2).
  destruct (open_state _ _ _ _ _ R1 H) as (x & G & Ea & _ & Hcl & Hp). destruct (sc_held x) eqn:Hh.
  - specialize (Hp eq_refl). cbn [sb_command sb_set_cmdq sb_pubs] in Ec. rewrite Hp in Ec. unfold sb_release in Ec. cbn [sb_set_cmdq sb_conns] in Ec. rewrite G in Ec. injection Ec as _ <-.
    exists (sc_in x). apply in_or_app. right. right. now left.
  - destruct (proj1 Hcl eq_refl) as [l Hl]. exists l. apply in_or_app. now left.
Qed.

(** After an absent publisher. *)
Lemma disconnect_absent evs s L1 L2 a : run sb_init evs = (s, L1 ++ UCmd (CDisconnect a) :: L2) -> attempts a L1 = attempts_ended a L1 -> ~ In (CConnect a) (commands L2) ->
  Forall (notfrom a) L2 /\ (~ In (UGaveUp a) L1 -> mget a (sb_stats s) = None).
Proof.
  intros R Ha Hn. destruct (run_split token ingress initial D _ _ _ _ _ _ R) as (evs1 & evs2 & s1 & q & s2 & o & L3 & -> & R1 & Eq & Ec & -> & R2).
  rewrite commands_app, in_app_iff in Hn. pose proof (run_TI token ingress initial D _ _ _ R1) as [_ T]. specialize (T a). rewrite Ha in T.
  assert (Ht : ~ In a (jm_tasks (sb_tasks s1))) by (apply (count_occ_not_In eq_dec); lia).
  assert (K : mget a (sb_pubs s2) = None /\ sb_tasks s2 = sb_tasks s1 /\ (mget a (sb_pubs s1) <> None -> mget a (sb_stats s2) = None) /\ (mget a (sb_stats s1) = None -> mget a (sb_stats s2) = None) /\ Forall (notfrom a) o).
  { cbn [sb_command sb_set_cmdq sb_pubs] in Ec. destruct (mget a (sb_pubs s1)) as [st|] eqn:G.
    - destruct (sb_release (Some st) (sb_set_cmdq s1 q)) as [s3 o3] eqn:Rl. injection Ec as <- <-. destruct (release_frame _ _ _ _ Rl) as (_ & _ & _ & _ & Et).
      cbn [sb_set_stats sb_set_pubs sb_pubs sb_tasks sb_stats]. rewrite !mget_del_eq. split; [reflexivity|]. split; [apply Et|]. split; [auto|]. split; [auto|]. apply plain_notfrom, (release_plain _ _ _ _ Rl).
    - injection Ec as <- <-. repeat split; auto. intros; congruence. }
  destruct K as (Kp & Kt & Ks & Ks2 & Kf). rewrite <- Kt in Ht.
  destruct (run_absent token ingress initial D a _ _ _ _ R2 Kp Ht) as (_ & _ & St & F); [tauto|]. split; [apply Forall_app; auto|].
  intros Hg. apply St. destruct (run_stale token ingress initial D a _ _ _ R1 Hg) as [|]; auto.
Qed.
End P.
