(** The joint model of a subscriber and a publisher socket: nothing is missing. *)
From Coq Require Import ZArith Permutation Sorting.Sorted.
From Verif Require Import Model.Base Model.Map Model.Framed Model.WirePubSub Model.WireAuth Model.Compression Model.Handshake Model.JoinMap Model.Utf8 Model.Trie Model.PubDriver Model.SubDriver Model.Net Model.PubSubNet
  Spec.Wire Spec.Stream Spec.Utf8Spec Spec.CompressSpec Spec.Topics Spec.PubSpec Spec.SubSpec Spec.NetSpec2
  Proofs.BaseP Proofs.MapP Proofs.Utf8P Proofs.SubDriverP9 Proofs.PubSubNetP Proofs.PubNetP Proofs.SubNetP Proofs.PubSubNetP3 Proofs.PubSubNetP6 Proofs.PubSubNetP7 Proofs.PubSubNetP8.
From Verif Require Proofs.PubDriverP Proofs.PubDriverP5 Proofs.SubDriverP Proofs.SubDriverP2 Proofs.SubDriverP3 Proofs.SubDriverP4 Proofs.SubDriverP7 Proofs.T_Pub Proofs.T_Sub Proofs.T_Compress.
Local Open Scope N_scope.

(** * Every call is published *)
Lemma prim_closed max buf auth s o s' : PubDriverP.qprim max buf auth s o s' -> ~ In QClosed o -> pb_closed s' = pb_closed s.
Proof. intros P N. destruct P; try reflexivity. exfalso. apply N. left. reflexivity. Qed.
Lemma act_published_all max buf min auth co s ev s' o : pb_act max buf min auth co s ev = (s', o) -> pb_closed s = false -> ~ In QPublishErr o ->
  Forall2 (stands min co) (pubs [ev]) (published o).
Proof.
  intros A C N. destruct (act_published _ _ _ _ _ _ _ _ _ A) as (qs & S & F).
  destruct ev as [cid e|k i b|k r| |t p|t p|]; try (cbn in S |- *; apply subseq_nil in S; subst; exact F).
  - cbn [pb_act] in A. unfold pb_send in A. destruct (publish_outgoing min co p) as [b|] eqn:E; [|inversion A; subst; exfalso; apply N; left; reflexivity]. rewrite C in A. inversion A; subst. constructor; [|constructor]. split; [reflexivity|left; exact E].
  - cbn [pb_act] in A. unfold pb_send in A. destruct (try_publish_outgoing min co p) as [b|] eqn:E; [|inversion A; subst; exfalso; apply N; left; reflexivity]. rewrite C in A. inversion A; subst. constructor; [|constructor]. split; [reflexivity|right; exact E].
Qed.
Lemma run_published_all max buf min auth co : forall evs s s' o, pb_run max buf min auth co s evs = (s', o) -> pb_closed s = false -> all_published o ->
  Forall2 (stands min co) (pubs evs) (published o).
Proof.
  induction evs as [|ev evs IH]; intros s s' o; cbn [pb_run]; [intros [= <- <-] _ _; constructor|].
  destruct (pb_act max buf min auth co s ev) as [s1 o1] eqn:A. destruct (pb_run max buf min auth co s1 evs) as [s2 o2] eqn:R. intros [= <- <-] C [N1 N2].
  change (ev :: evs) with ([ev] ++ evs). rewrite pubs_app, published_app. apply Forall2_app.
  - eapply act_published_all; [exact A|exact C|]. intros H. apply N1, in_or_app. left. exact H.
  - eapply IH; [exact R| |].
    + erewrite prim_closed; [exact C|eapply PubDriverP.act_prim; exact A|]. intros H. apply N2, in_or_app. left. exact H.
    + split; intros H; [apply N1|apply N2]; apply in_or_app; right; exact H.
Qed.

(** * Everything received is given to the application *)
Lemma accepted_all c l : (forall m now r, In (URecv c m now r) l -> r = TSent) -> accepted c l = received_on c l.
Proof.
  induction l as [|x l IH]; intros H; [reflexivity|]. unfold accepted, received_on in *. cbn [flat_map]. rewrite IH by (intros m now r Hi; eapply H; right; exact Hi). f_equal.
  destruct x as [| | | | | | | | | | |c' m now r| | | | | | | | | |]; try reflexivity. destruct (eq_dec c' c) as [->|]; [|destruct r; reflexivity]. specialize (H m now r (or_introl eq_refl)). subst. destruct (eq_dec c c); [reflexivity|congruence].
Qed.
Lemma queued_all c (P : tmsg -> bytes -> Prop) l : (forall m a p r, In (UDeliver c m a p r) l -> r = TSent /\ P m p) -> (forall m, ~ In (UUndecodable c m) l) ->
  Forall2 (fun m q => match q with (a, t, p) => t = tm_topic m /\ P m p end) (SubSpec.taken c l) (queued_on c l).
Proof.
  induction l as [|x l IH]; intros H N; [constructor|]. unfold SubSpec.taken, queued_on in *. cbn [flat_map]. apply Forall2_app; [|apply IH; [intros m a p r Hi; eapply H; right; exact Hi|intros m Hi; eapply N; right; exact Hi]].
  destruct x; try constructor.
  - destruct (eq_dec cid c) as [->|]; [|constructor]. exfalso. eapply N. left. reflexivity.
  - destruct (eq_dec cid c) as [->|]; [|destruct r; constructor]. destruct (H _ _ _ _ (or_introl eq_refl)) as [-> Hp]. destruct (eq_dec c c); [|congruence]. repeat constructor. exact Hp.
Qed.

Section S.
Variables (token : option bytes) (ingress initial : N) (D : decompressors).
Lemma given_all evs s l c : sb_run token ingress initial D sb_init evs = (s, l) -> nothing_refused c l -> sb_out s = [] ->
  (forall x, mget c (sb_conns s) = Some x -> sc_in x = []) -> (forall m, In m (received_on c l) -> try_decompress D (ps_ctype m) (ps_payload m) <> None) ->
  Forall2 (fun m q => match q with (a, t, p) => t = from_utf8_lossy (ps_topic m) /\ try_decompress D (ps_ctype m) (ps_payload m) = Some p end) (received_on c l) (yielded c l).
Proof.
  intros R (N1 & N2 & N3 & N4) Eo Ei Dec. pose proof (SubDriverP4.run_GI token ingress initial D _ _ _ R) as G. pose proof (SubDriverP2.run_connI token ingress initial D c _ _ _ R) as CI.
  pose proof (accepted_all _ _ N1) as Ea.
  assert (Et : map tmsg_of (received_on c l) = SubSpec.taken c l).
  { pose proof (SubDriverP2.ci_in _ _ _ _ CI) as I. unfold SubDriverP2.inI in I. rewrite SubDriverP2.accepted_on, SubDriverP2.taken_on in I. destruct (mget c (sb_conns s)) as [x|] eqn:Gx.
    - destruct I as (I1 & I2 & _). rewrite (Ei x eq_refl), Ea in I1. destruct (sc_held x).
      + rewrite I1 by reflexivity. apply app_nil_r.
      + exfalso. destruct (I2 eq_refl) as (_ & lost & Hl & _). apply N3. exists lost. apply SubDriverP2.in_on in Hl; [exact Hl|]. cbn. destruct (eq_dec c c); congruence.
    - rewrite <- Ea, <- SubDriverP2.accepted_on, <- SubDriverP2.taken_on, I. reflexivity. }
  assert (Eq : queued_on c l = yielded c l).
  { rewrite queued_on_filter, yielded_filter. assert (Dr : sb_dropped s = false) by (destruct (sb_dropped s) eqn:Ed; [exfalso; apply N4; apply (SubDriverP3.gi_drop _ _ _ G); exact Ed|reflexivity]).
    rewrite (SubDriverP3.gi_out _ _ _ G Dr), Eo, app_nil_r. reflexivity. }
  rewrite <- Eq. assert (F : Forall2 (fun m q => match q with (a, t, p) => t = tm_topic m /\ try_decompress D (tm_ctype m) (tm_payload m) = Some p end) (SubSpec.taken c l) (queued_on c l)).
  { apply queued_all.
    - intros m a p r Hi. split; [eapply N2; exact Hi|]. eapply deliver_facts; eassumption.
    - intros m Hi. pose proof (T_Sub.C43_drop_reasons_pf _ _ _ _ _ _ _ R) as (_ & _ & _ & _ & U & _). pose proof (U _ _ Hi) as Un.
      assert (Hm : In m (SubSpec.taken c l)). { unfold SubSpec.taken. apply in_flat_map. eexists. split; [exact Hi|]. cbn. destruct (eq_dec c c); [left; reflexivity|congruence]. }
      rewrite <- Et in Hm. apply in_map_iff in Hm. destruct Hm as (w & <- & Hw). exact (Dec _ Hw Un). }
  rewrite <- Et in F. apply forall2_map_l in F. eapply forall2_mono; [|exact F]. intros w [[a t] p] _ _ H. exact H.
Qed.
End S.

Lemma forall2_nth_l {A B} (R : A -> B -> Prop) a b : Forall2 R a b -> forall n y, nth_error b n = Some y -> exists x, nth_error a n = Some x /\ R x y.
Proof. induction 1; intros [|n] z H'; try discriminate; cbn in *; [injection H' as <-; eauto|eauto]. Qed.

Section Z.
Variables (token : option bytes) (ingress initial : N) (D : decompressors)
          (max : option N) (buf min : N) (auth : option (bytes -> bool)) (co : option compressor).
Hypothesis TOK : forall t, token = Some t -> blen t < 2 ^ 32.
Notation run := (z_run token ingress initial D max buf min auth co).

Lemma received_due evs c d : ps_frames_fit (run evs) -> same_connection (run evs) c d -> arrived (run evs) c -> ~ In d (sub_ended (z_slog (run evs))) ->
  (forall i, ~ about_to_be_sent (z_s (run evs)) (z_slog (run evs)) d i) ->
  exists is, StronglySorted N.lt is /\ (forall i, In i is <-> due d (z_slog (run evs)) i) /\
    Forall2 (fun i m => exists p, message (z_slog (run evs)) i = Some p /\ carries p m) is (received_on c (z_clog (run evs))).
Proof using TOK.
  intros Fit Sc Ar Ne Na. pose proof (pub_is_run token ingress initial D max buf min auth co TOK evs) as Rs.
  destruct (T_Pub.C33_in_order_no_duplicates_pf _ _ _ _ _ _ _ _ d Rs) as (is & So & Du & Fi & _ & Ex). exists is. split; [exact So|]. split.
  - intros i. split; [intros H; rewrite Forall_forall in Du; exact (Du _ H)|]. intros H. destruct (Ex _ H) as [K|[K|K]]; [exact K|exfalso; exact (Na _ K)|contradiction].
  - rewrite (rest_frames token ingress initial D max buf min auth co TOK evs c d Fit Sc Ar), (all_taken token ingress initial D max buf min auth co TOK evs d Ne). exact Fi.
Qed.

Lemma obtained_due evs c d : (forall k, co = Some k -> inverse_of D k) -> ps_frames_fit (run evs) -> (forall t p, In (t, p) (announced evs) -> utf8 t) ->
  all_published (z_slog (run evs)) ->
  same_connection (run evs) c d -> arrived (run evs) c -> ~ In d (sub_ended (z_slog (run evs))) -> (forall i, ~ about_to_be_sent (z_s (run evs)) (z_slog (run evs)) d i) ->
  nothing_refused c (z_clog (run evs)) -> all_taken_out (run evs) c ->
  exists is, StronglySorted N.lt is /\ (forall i, In i is <-> due d (z_slog (run evs)) i) /\
    Forall2 (fun i q => nth_error (announced evs) (N.to_nat i) = Some q) is (obtained c (z_clog (run evs))).
Proof using TOK.
  intros HD Fit U Ap Sc Ar Ne Na Nr [At Ao]. destruct (received_due evs c d Fit Sc Ar Ne Na) as (is & So & Du & Fi). exists is. split; [exact So|]. split; [exact Du|].
  pose proof (pub_is_run token ingress initial D max buf min auth co TOK evs) as Rs. pose proof (sub_is_run token ingress initial D max buf min auth co TOK evs) as Rc.
  pose proof (run_published_all _ _ _ _ _ _ _ _ _ Rs eq_refl Ap) as Pa. rewrite run_pubs in Pa.
  assert (Fq : Forall2 (fun i w => exists q, nth_error (announced evs) (N.to_nat i) = Some q /\ ps_topic w = fst q /\ try_decompress D (ps_ctype w) (ps_payload w) = Some (snd q)) is (received_on c (z_clog (run evs)))).
  { eapply forall2_mono; [|exact Fi]. intros i w _ _ (p & Hp & Ca). unfold message in Hp. destruct (forall2_nth_l _ _ _ Pa _ _ Hp) as (q & Hq & Sq). exists q. split; [exact Hq|]. eapply stands_decompress; eauto. }
  assert (Dec : forall m, In m (received_on c (z_clog (run evs))) -> try_decompress D (ps_ctype m) (ps_payload m) <> None).
  { clear - Fq. induction Fq as [|i w is ws (q & _ & _ & E) Fq IH]; intros m; [intros []|]. intros [<-|H]; [congruence|auto]. }
  pose proof (given_all _ _ _ _ _ _ _ _ Rc Nr Ao At Dec) as Fg. unfold obtained. apply (proj1 (forall2_map_r _ (fun i q => nth_error (announced evs) (N.to_nat i) = Some q) _ _)).
  eapply forall2_mono; [|eapply forall2_compose; [exact Fq|exact Fg]]. intros i [[a t] p] _ _ (w & ([t0 p0] & Hq & E1 & E2) & E3 & E4). cbn [fst snd] in *.
  assert (Ut : utf8 t0) by (eapply U; eapply nth_error_In; exact Hq). rewrite E1, (lossy_id _ Ut) in E3. rewrite Hq. congruence.
Qed.
End Z.
