(** The joint model of a subscriber and a publisher socket: after the way back, the subscriptions are in force (C86). *)
From Coq Require Import ZArith Permutation Sorting.Sorted.
From Verif Require Import Model.Base Model.Map Model.Framed Model.WirePubSub Model.WireAuth Model.Compression Model.Handshake Model.JoinMap Model.Backoff Model.Trie Model.Utf8 Model.PubDriver Model.SubDriver Model.Net Model.PubSubNet
  Spec.Wire Spec.Stream Spec.CompressSpec Spec.PubSpec Spec.SubSpec Spec.Utf8Spec Spec.NetSpec2 Spec.NetSpec6 Spec.NetSpec9
  Proofs.BaseP Proofs.MapP Proofs.PubSubP Proofs.NetP Proofs.PubSubNetP Proofs.PubNetP Proofs.SubNetP Proofs.PubSubNetP2 Proofs.PubSubNetP3 Proofs.PubSubNetP5 Proofs.PubSubNetP6 Proofs.PubSubNetP8 Proofs.PubSubNetP12 Proofs.PubSubNetP14 Proofs.PubSubNetP15 Proofs.PubSubNetP19 Proofs.PubSubNetP20.
From Verif Require Proofs.Utf8P Proofs.SubDriverP Proofs.SubDriverP2 Proofs.SubDriverP3 Proofs.SubDriverP4 Proofs.PubDriverP2 Proofs.PubDriverP3 Proofs.PubDriverP4.
Local Open Scope N_scope.

Lemma coming_fits co a now late order more : Forall (coming_back a now late order) more -> Forall (input_fits co) more /\ announced more = [].
Proof.
  induction 1 as [|ev more H _ [IH1 IH2]]; [split; [constructor|reflexivity]|]. split; [constructor; [|exact IH1]|].
  - destruct ev as [f| | |a' t| |a' ok|k r o|cid e i|from|k r|k i b|cid e i|t p|t p| ]; try exact Logic.I; destruct H.
  - unfold announced in *. cbn [flat_map]. rewrite IH2. destruct ev; try reflexivity; destruct H.
Qed.
Lemma made_subs ms : forall l, Forall SubDriverP2.made ms -> map ps_topic ms = map ctl_topic (map SSub l) -> means ms = map (fun t => TSub (from_utf8_lossy t)) l.
Proof.
  induction ms as [|m ms IH]; intros [|t l] F E; try discriminate; [reflexivity|]. cbn [map] in E. inversion F; subst. injection E as E1 E2.
  cbn [means flat_map map]. rewrite (made_control m (SSub t) H1 E1). cbn [app]. f_equal. apply IH; assumption.
Qed.
Lemma on_nil c L x : on c L = [] -> In x L -> about c x = false.
Proof. intros E H. destruct (about c x) eqn:A; [|reflexivity]. exfalso. assert (K : In x (on c L)) by (apply filter_In; auto). rewrite E in K. exact K. Qed.
Lemma about_same c x : (match x with UOpen k _ | UTry k _ _ | UGot k _ | UBusy k | UWire k _ _ | URecv k _ _ _ | URecvErr k | UUndecodable k _ | UDeliver k _ _ _ _ | UClosed k _ | UEnd k | UCrash k => k = c | _ => False end) -> about c x = true.
Proof. destruct x; cbn; try contradiction; intros ->; destruct (eq_dec c c); congruence. Qed.

Lemma got_dialling a c k o : (forall x, In x o -> dialling a c x) -> got k o = [].
Proof.
  induction o as [|u o IH]; intros Fo; [reflexivity|]. unfold got in *. cbn [flat_map]. rewrite IH by (intros; apply Fo; now right). specialize (Fo u (or_introl eq_refl)). destruct u; try contradiction; reflexivity.
Qed.
Lemma wired_dialling a c k o : (forall x, In x o -> dialling a c x) -> wired k o = [] /\ written_on k o = [].
Proof.
  induction o as [|u o IH]; intros Fo; [split; reflexivity|]. destruct IH as [I1 I2]; [intros; apply Fo; now right|]. unfold wired, written_on in *. cbn [flat_map]. rewrite I1, I2. specialize (Fo u (or_introl eq_refl)). destruct u; try contradiction; split; reflexivity.
Qed.

Section Z.
Variables (token : option bytes) (ingress initial : N) (D : decompressors)
          (max : option N) (buf min : N) (auth : option (bytes -> bool)) (co : option compressor).
Hypothesis TOK : forall t, token = Some t -> blen t < 2 ^ 32.
Notation step := (z_step token ingress initial D max buf min auth co).
Notation run := (z_run token ingress initial D max buf min auth co).
Notation fu := (first_unread buf).

Lemma fresh_log evs : let z := run evs in on (sb_next (z_c z)) (z_clog z) = [] /\ PubDriverP2.silent (pb_next_cid (z_s z)) (z_slog z) /\ (sb_dropped (z_c z) = false -> ~ In UDropped (z_clog z)).
Proof using TOK.
  cbv zeta. pose proof (sub_is_run token ingress initial D max buf min auth co TOK evs) as Rc. pose proof (pub_is_run token ingress initial D max buf min auth co TOK evs) as Rs. split; [|split].
  - pose proof (SubDriverP2.ci_life _ _ _ _ (SubDriverP2.run_connI token ingress initial D (sb_next (z_c (run evs))) _ _ _ Rc)) as Li. unfold SubDriverP2.lifeI in Li.
    destruct (mget _ _) as [x|] eqn:Q; [|exact Li]. exfalso. apply (SubDriverP.si_next _ (SubDriverP.run_SI token ingress initial D _ _ _ Rc)) in Q. lia.
  - destruct (PubDriverP4.run_tinv _ _ _ _ _ _ _ _ Rs) as [_ T]. pose proof (PubDriverP3.run_inv1 _ _ _ _ _ _ _ _ Rs) as J.
    assert (Na : ~ In (pb_next_cid (z_s (run evs))) (sub_admitted (z_slog (run evs)))) by (intros K; apply (PubDriverP3.i1_next _ _ J) in K; lia).
    assert (Ns : forall c, In c (PubDriverP3.qconns (z_s (run evs)) ++ sub_ended (z_slog (run evs))) -> In c (sub_admitted (z_slog (run evs)))) by (intros c K; eapply Permutation_in; [symmetry; apply (PubDriverP3.i1_perm _ _ J)|exact K]).
    apply (PubDriverP2.ti_silent _ _ _ T).
    + destruct (mget _ _) eqn:Q; [|reflexivity]. exfalso. apply Na, Ns. apply in_or_app. left. unfold PubDriverP3.qconns. apply in_or_app. right. apply in_or_app. right. apply mget_keys. congruence.
    + intros K. apply Na, Ns. apply in_or_app. now right.
  - intros Dr K. pose proof (SubDriverP4.run_GI token ingress initial D _ _ _ Rc) as G. apply (SubDriverP3.gi_drop _ _ _ G) in K. congruence.
Qed.

Theorem restored evs a b now later order : 0 < ingress -> (forall cm, co = Some cm -> inverse_of D cm) -> later < 2 ^ 64 -> Forall (input_fits co) evs -> let z := run evs in
  (forall t p, In (t, p) (announced evs) -> utf8 t) -> all_published (z_slog z) ->
  can_come_back token z a b -> sub_let_in token auth -> pub_has_room max (z_s z) -> sb_dropped (z_c z) = false -> pb_closed (z_s z) = false ->
  let c := sb_next (z_c z) in let d := pb_next_cid (z_s z) in let ts := arrange order (sb_topics (z_c z)) in
  exists more more2, let e2 := evs ++ more ++ more2 in let z2 := run e2 in
    (length more <= 8)%nat /\ Forall (coming_back a now (next_dial b now) order) more /\ Sorted N.le (dial_times more) /\
    (length more2 <= length (sb_out (z_c z)) + 3 * length (firstn 64 ts))%nat /\ Forall (helpful later c d) more2 /\
    Permutation ts (sb_topics (z_c z)) /\ sb_topics (z_c z2) = sb_topics (z_c z) /\
    in_touch z2 c d /\ all_done z2 c d /\ obtained c (z_clog z2) = [] /\ ops_of d (z_slog z2) = map (fun t => TSub (from_utf8_lossy t)) (firstn 64 ts) /\
    Forall (input_fits co) e2 /\ announced e2 = announced evs /\ all_published (z_slog z2) /\ nothing_refused c (z_clog z2).
Proof using TOK.
  intros ING INV Nw F z U Ap Can Li Rm Dr Cl c d ts. subst z.
  destruct (way_back token ingress initial D max buf min auth co evs a b now order TOK Can Li Rm Dr Cl) as (more & M1 & M2 & M3 & M4 & M5 & (o & Eo & Fo) & (os & Es & Fs)).
  fold c d in M4, M5, Fo, Fs. destruct M5 as [B1 B2 B3 (x1 & X1 & X2 & X3 & X4 & X5) B5 (B6 & B7 & B8 & B9) B10 B11 B12 (l & k & K1 & K2 & K3 & K4 & K5) B14].
  fold ts in B3, X3. set (e1 := evs ++ more) in *. destruct (coming_fits co _ _ _ _ _ M2) as [F1 A1].
  assert (Fe1 : Forall (input_fits co) e1) by (apply Forall_app; auto).
  assert (Ae1 : announced e1 = announced evs) by (unfold e1; rewrite announced_app, A1, app_nil_r; reflexivity).
  destruct (fresh_log evs) as (G1 & G2 & G3). fold c in G1. fold d in G2. specialize (G3 Dr).
  assert (Ap1 : all_published (z_slog (run e1))).
  { rewrite Es. destruct Ap as [P1 P2]. rewrite Forall_forall in Fs. split; intros K; apply in_app_or in K; destruct K as [K|K]; auto; exact (Fs _ K). }
  rewrite Forall_forall in Fo.
  assert (Nr1 : nothing_refused c (z_clog (run e1))).
  { rewrite Eo. unfold nothing_refused, driver_closed. split; [|split; [|split]].
    - intros m nw r K. apply in_app_or in K. destruct K as [K|K]; [apply (on_nil _ _ _ G1) in K; rewrite about_same in K; [discriminate|reflexivity]|destruct (Fo _ K)].
    - intros m a0 p r K. apply in_app_or in K. destruct K as [K|K]; [apply (on_nil _ _ _ G1) in K; rewrite about_same in K; [discriminate|reflexivity]|destruct (Fo _ K)].
    - intros (lost & K). apply in_app_or in K. destruct K as [K|K]; [apply (on_nil _ _ _ G1) in K; rewrite about_same in K; [discriminate|reflexivity]|destruct (Fo _ K)].
    - intros K. apply in_app_or in K. destruct K as [K|K]; [exact (G3 K)|destruct (Fo _ K)]. }
  assert (U1 : forall t p, In (t, p) (announced e1) -> utf8 t) by (rewrite Ae1; exact U).
  destruct (all_obtained token ingress initial D max buf min auth co TOK e1 c d later ING INV Nw Fe1 M4 U1 Ap1 Nr1) as (more2 & H1 & H2 & H3 & H4 & H5 & H6 & H7 & H8 & (is & I1 & I2 & I3)).
  exists more, more2. cbv zeta. rewrite app_assoc. fold e1. split; [exact M1|]. split; [exact M2|]. split; [exact M3|].
  assert (Wk : work_to_do (run e1) c d = (length (sb_out (z_c (run evs))) + 3 * length (firstn 64 ts))%nat).
  { unfold work_to_do, sub_work, pub_work, wire_work. rewrite X1, X3, X4, X5, B5, K1, K3, K4, K5, B8, B9. cbn [length sess_new sn_pos sn_pending]. rewrite map_length. unfold blen. lia. }
  rewrite Wk in H3. split; [exact H3|]. split; [exact H1|]. split; [exact B3|]. split; [rewrite (nr_topics _ _ _ _ H4); exact B6|]. split; [exact H5|]. split; [exact H6|].
  split.
  { assert (En : is = []). { destruct is as [|i r]; [reflexivity|]. exfalso. destruct (proj1 (I2 i) (or_introl eq_refl)) as [K|(K & t & p & Hn & _)].
      - destruct K as (be & af & p & E & _). assert (Hi : In (QTook d i) (z_slog (run e1))) by (rewrite E; apply in_or_app; right; left; reflexivity). rewrite Es in Hi. apply in_app_or in Hi.
        destruct Hi as [Hi|Hi]; [exact (G2 _ Hi eq_refl)|]. rewrite Forall_forall in Fs. exact (Fs _ Hi).
      - assert (Et : fu (run e1) d = blen (announced e1)).
        { unfold first_unread. rewrite B5, B9. cbn [sess_new sn_pos]. pose proof (forall2_len _ _ _ (hist_announced token ingress initial D max buf min auth co TOK e1 Ap1)) as Ln. unfold blen. rewrite Ln, B9.
          destruct (N.ltb_spec (N.of_nat (length (pb_hist (z_s (run evs)))) + bcast_cap buf) (N.of_nat (length (pb_hist (z_s (run evs)))))); lia. }
        rewrite Et in K. assert (N.to_nat i < length (announced e1))%nat by (apply nth_error_Some; congruence). unfold blen in K. lia. }
    subst is. inversion I3. reflexivity. }
  assert (F2 : Forall (input_fits co) (e1 ++ more2)) by (apply Forall_app; auto).
  split.
  { pose proof (pub_is_run token ingress initial D max buf min auth co TOK (e1 ++ more2)) as Rs. rewrite (ops_means _ _ _ _ _ _ _ _ d _ Rs (ex_intro _ [] (eq_sym (app_nil_r _)))), (rest_controls token ingress initial D max buf min auth co TOK (e1 ++ more2) c d F2 H5 H6).
    destruct (nr_clog _ _ _ _ H4) as (o' & Eo' & Fo').
    pose proof (SubDriverP2.run_connI token ingress initial D c _ _ _ (sub_is_run token ingress initial D max buf min auth co TOK e1)) as CI.
    pose proof (SubDriverP2.run_connI token ingress initial D c _ _ _ (sub_is_run token ingress initial D max buf min auth co TOK (e1 ++ more2))) as CI'.
    assert (Al : sc_alive x1 = true) by (destruct M4 as (_ & _ & (x2 & Z1 & Z2 & _) & _); congruence).
    assert (Dx' : exists x', mget c (sb_conns (z_c (run (e1 ++ more2)))) = Some x' /\ sc_in x' = [] /\ sc_cmds x' = [] /\ sc_egress x' = []) by apply H6.
    destruct Dx' as (x' & X1' & _ & Xc' & Xe'). assert (Al' : sc_alive x' = true) by (destruct H5 as (_ & _ & (x2 & Z1 & Z2 & _) & _); congruence).
    pose proof (SubDriverP2.ci_cmd _ _ _ _ CI) as Cm. pose proof (SubDriverP2.ci_cmd _ _ _ _ CI') as Cm'. pose proof (SubDriverP2.ci_wire _ _ _ _ CI') as Wi'.
    unfold SubDriverP2.cmdI, SubDriverP2.wireI in *. rewrite X1 in Cm. rewrite X1' in Cm', Wi'. destruct Cm as (Cm & _). destruct Cm' as (Cm' & _). destruct Wi' as (Wm' & _ & Wi' & _). specialize (Cm Al). specialize (Cm' Al'). specialize (Wi' Al'). destruct Wi' as [_ Wi'].
    rewrite Xc', app_nil_r in Cm'. rewrite Xe', app_nil_r in Wi'. rewrite X3 in Cm.
    assert (Nb : ~ In (UBusy c) (on c (z_clog (run (e1 ++ more2))))).
    { intros K. apply filter_In in K. destruct K as [K _]. rewrite Eo', Eo in K. apply in_app_or in K. destruct K as [K|K]; [apply in_app_or in K; destruct K as [K|K]|].
      - apply (on_nil _ _ _ G1) in K. rewrite about_same in K; [discriminate|reflexivity].
      - destruct (Fo _ K).
      - rewrite Forall_forall in Fo'. destruct (Fo' _ K). }
    specialize (Wi' Nb). rewrite SubDriverP2.enqueued_on, SubDriverP2.got_on in Cm, Cm'. rewrite SubDriverP2.wired_on in Wi', Wm'. rewrite SubDriverP2.got_on in Wi'.
    assert (Gt : got c (z_clog (run e1)) = []).
    { rewrite Eo, SubDriverP2.got_app, <- (SubDriverP2.got_on c (z_clog (run evs))), G1, (got_dialling a c c o Fo). reflexivity. }
    rewrite Gt in Cm. cbn [app] in Cm. rewrite Eo', SubDriverP2.enqueued_app, Cm in Cm'. rewrite <- Eo' in Cm'.
    assert (En : enqueued c o' = []). { clear - Fo'. induction Fo' as [|u o' Hu _ IH]; [reflexivity|]. unfold enqueued in *. cbn [flat_map]. rewrite IH. destruct u; try contradiction; reflexivity. }
    rewrite En, app_nil_r in Cm'. rewrite <- Cm' in Wi'.
    assert (Ew : written_on c (z_clog (run (e1 ++ more2))) = wired c (z_clog (run (e1 ++ more2)))).
    { rewrite Eo', Eo. rewrite !wok_on_app, !SubDriverP2.wired_app. rewrite <- (SubDriverP2.wired_on c (z_clog (run evs))), G1.
      assert (W0 : written_on c (z_clog (run evs)) = []).
      { destruct (written_on c (z_clog (run evs))) as [|m r] eqn:Q; [reflexivity|]. exfalso. assert (K : In m (written_on c (z_clog (run evs)))) by (rewrite Q; now left). unfold written_on in K. apply in_flat_map in K. destruct K as (u & Hu & K).
        pose proof (on_nil _ _ _ G1 Hu) as A. destruct u; try contradiction. destruct ok; [|contradiction]. destruct (eq_dec cid c) as [->|]; [|contradiction]. rewrite about_same in A; [discriminate|reflexivity]. }
      rewrite W0. change (wired c []) with (@nil ps_msg). cbn [app]. destruct (wired_dialling a c c o Fo) as [-> ->]. f_equal.
      - clear - Fo'. induction Fo' as [|u o' Hu _ IH]; [reflexivity|]. unfold written_on, wired in *. cbn [flat_map]. rewrite IH. destruct u; try contradiction; try reflexivity. destruct ok; [reflexivity|contradiction]. }
    rewrite Ew. apply made_subs; [exact Wm'|exact Wi']. }
  split; [exact F2|]. split; [rewrite announced_app, (helpful_announced _ _ _ _ H1), app_nil_r; exact Ae1|]. split; [exact H7|exact H8].
Qed.
End Z.
