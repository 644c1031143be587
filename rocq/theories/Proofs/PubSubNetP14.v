(** The joint model of a subscriber and a publisher socket in touch: what the application has obtained at rest; a subscription takes effect. *)
From Coq Require Import ZArith Permutation Sorting.Sorted.
From Verif Require Import Model.Base Model.Map Model.Framed Model.WirePubSub Model.WireAuth Model.Compression Model.Handshake Model.JoinMap Model.Backoff Model.Trie Model.PubDriver Model.SubDriver Model.Net Model.PubSubNet
  Spec.Wire Spec.Stream Spec.CompressSpec Spec.PubSpec Spec.SubSpec Spec.Utf8Spec Spec.NetSpec2 Spec.NetSpec6
  Proofs.BaseP Proofs.MapP Proofs.PubSubP Proofs.PubSubNetP Proofs.PubNetP Proofs.SubNetP Proofs.PubSubNetP2 Proofs.PubSubNetP3 Proofs.PubSubNetP5 Proofs.PubSubNetP6 Proofs.PubSubNetP7 Proofs.PubSubNetP9 Proofs.PubSubNetP10 Proofs.PubSubNetP11 Proofs.PubSubNetP12 Proofs.PubSubNetP13.
From Verif Require Proofs.PubDriverP Proofs.PubDriverP2 Proofs.PubDriverP3 Proofs.PubDriverP4 Proofs.SubDriverP Proofs.SubDriverP2 Proofs.SubDriverP3 Proofs.SubDriverP4.
Local Open Scope N_scope.

Lemma fine_pub_published d o : Forall (fine_pub d) o -> ~ In QPublishErr o /\ ~ In QClosed o.
Proof. rewrite Forall_forall. intros H. split; intros K; exact (H _ K). Qed.
Lemma fine_refused c l o : Forall (fine_sub c) o -> nothing_refused c l -> nothing_refused c (l ++ o).
Proof.
  rewrite Forall_forall. intros H (A1 & A2 & A3 & A4). repeat split.
  - intros m now r K. apply in_app_or in K. destruct K as [K|K]; [eapply A1; exact K|]. specialize (H _ K). destruct r; try contradiction. reflexivity.
  - intros m a p r K. apply in_app_or in K. destruct K as [K|K]; [eapply A2; exact K|]. specialize (H _ K). destruct r; try contradiction. reflexivity.
  - intros (lost & K). apply in_app_or in K. destruct K as [K|K]; [apply A3; exists lost; exact K|exact (H _ K)].
  - intros K. apply in_app_or in K. destruct K as [K|K]; [exact (A4 K)|exact (H _ K)].
Qed.
Lemma helpful_announced now c d more : Forall (helpful now c d) more -> announced more = [].
Proof. induction 1 as [|ev more H _ IH]; [reflexivity|]. cbn [announced flat_map]. fold (announced more). rewrite IH. destruct ev; try contradiction; reflexivity. Qed.
Lemma announced_app a b : announced (a ++ b) = announced a ++ announced b. Proof. apply flat_map_app. Qed.

Lemma forall2_len {A B} (R : A -> B -> Prop) a b : Forall2 R a b -> length a = length b. Proof. induction 1; cbn; congruence. Qed.

Lemma sorted_unique (a : list N) : StronglySorted N.lt a -> forall b, StronglySorted N.lt b -> (forall i, In i a <-> In i b) -> a = b.
Proof.
  induction 1 as [|x a Sa IH Ha]; intros b Sb E.
  - destruct b as [|y b]; [reflexivity|]. exfalso. apply (E y). left. reflexivity.
  - destruct Sb as [|y b Sb Hb]; [exfalso; apply (E x); left; reflexivity|].
    rewrite Forall_forall in Ha, Hb. assert (x = y).
    { assert (X : In x (y :: b)) by (apply E; left; reflexivity). assert (Y : In y (x :: a)) by (apply E; left; reflexivity). destruct X as [X|X]; [congruence|]. destruct Y as [Y|Y]; [congruence|]. specialize (Ha _ Y). specialize (Hb _ X). lia. }
    subst y. f_equal. apply IH; [exact Sb|]. intros i. split; intros Hi.
    + assert (K : In i (x :: b)) by (apply E; right; exact Hi). destruct K as [->|K]; [specialize (Ha _ Hi); lia|exact K].
    + assert (K : In i (x :: a)) by (apply E; right; exact Hi). destruct K as [->|K]; [specialize (Hb _ Hi); lia|exact K].
Qed.
Lemma sorted_app (a b : list N) n : StronglySorted N.lt a -> StronglySorted N.lt b -> Forall (fun i => i < n) a -> Forall (fun i => n <= i) b -> StronglySorted N.lt (a ++ b).
Proof.
  intros Sa Sb Ha Hb. induction Sa as [|x a Sa IH Hx]; [exact Sb|]. inversion Ha; subst. cbn [app]. constructor; [apply IH; assumption|].
  apply Forall_app. split; [exact Hx|]. eapply Forall_impl; [|exact Hb]. cbn. intros i Hi. lia.
Qed.
(** The positions of the wanted ones among new messages. *)
Fixpoint places (f : bytes -> bool) (n : N) (msgs : list (bytes * bytes)) : list N :=
  match msgs with [] => [] | (t, p) :: r => if f t then n :: places f (n + 1) r else places f (n + 1) r end.
Lemma places_ge f msgs : forall n, Forall (fun i => n <= i) (places f n msgs) /\ StronglySorted N.lt (places f n msgs).
Proof.
  induction msgs as [|[t p] r IH]; intros n; [split; constructor|]. cbn [places]. destruct (IH (n + 1)) as [I1 I2].
  assert (I3 : Forall (fun i => n <= i) (places f (n + 1) r)) by (eapply Forall_impl; [|exact I1]; cbn; intros; lia).
  destruct (f t); [|split; assumption]. split; [constructor; [lia|exact I3]|]. constructor; [exact I2|]. eapply Forall_impl; [|exact I1]. cbn. intros; lia.
Qed.
Lemma places_in f msgs : forall n i, In i (places f n msgs) <-> n <= i /\ exists t p, nth_error msgs (N.to_nat (i - n)) = Some (t, p) /\ f t = true.
Proof.
  induction msgs as [|[t p] r IH]; intros n i; cbn [places].
  { split; [intros []|]. intros (_ & t & p & H & _). destruct (N.to_nat (i - n)); discriminate. }
  assert (K : In i (places f (n + 1) r) <-> n < i /\ exists t0 p0, nth_error ((t, p) :: r) (N.to_nat (i - n)) = Some (t0, p0) /\ f t0 = true).
  { rewrite IH. split; intros (H1 & t0 & p0 & H2 & H3); (split; [lia|exists t0, p0; split; [|exact H3]]).
    - replace (N.to_nat (i - n)) with (S (N.to_nat (i - (n + 1)))) by lia. exact H2.
    - replace (N.to_nat (i - n)) with (S (N.to_nat (i - (n + 1)))) in H2 by lia. exact H2. }
  assert (Z : n <= i <-> i = n \/ n < i) by lia.
  destruct (f t) eqn:Ef.
  - cbn [In]. rewrite K. split.
    + intros [->|(H1 & H2)]; [|split; [lia|exact H2]]. split; [lia|]. exists t, p. rewrite N.sub_diag. split; [reflexivity|exact Ef].
    + intros (H1 & H2). apply Z in H1. destruct H1 as [->|H1]; [left; reflexivity|right; auto].
  - rewrite K. split.
    + intros (H1 & H2). split; [lia|exact H2].
    + intros (H1 & H2). split; [|exact H2]. apply Z in H1. destruct H1 as [->|H1]; [|exact H1]. exfalso. destruct H2 as (t0 & p0 & H2 & H3). rewrite N.sub_diag in H2. cbn in H2. congruence.
Qed.
Lemma places_obtained f (l : list (bytes * bytes)) msgs : forall n, n = blen l -> Forall2 (fun i q => nth_error (l ++ msgs) (N.to_nat i) = Some q) (places f n msgs) (filter (fun q => f (fst q)) msgs).
Proof.
  revert l. induction msgs as [|[t p] r IH]; intros l n ->; [constructor|]. cbn [places filter fst].
  assert (K := IH (l ++ [(t, p)]) (blen l + 1) ltac:(unfold blen; rewrite app_length; cbn [length]; lia)). rewrite <- app_assoc in K. cbn [app] in K.
  destruct (f t); [|exact K]. constructor; [|exact K]. unfold blen. rewrite Nnat.Nat2N.id. rewrite nth_error_app2 by lia. rewrite Nat.sub_diag. reflexivity.
Qed.
Lemma forall2_nth_unique (l : list (bytes * bytes)) is : forall a b, Forall2 (fun i q => nth_error l (N.to_nat i) = Some q) is a -> Forall2 (fun i q => nth_error l (N.to_nat i) = Some q) is b -> a = b.
Proof.
  induction is as [|i is IH]; intros a b Ha Hb; inversion Ha; inversion Hb; subst; [reflexivity|]. f_equal; [congruence|]. apply IH; assumption.
Qed.


Section Z.
Variables (token : option bytes) (ingress initial : N) (D : decompressors)
          (max : option N) (buf min : N) (auth : option (bytes -> bool)) (co : option compressor).
Hypothesis TOK : forall t, token = Some t -> blen t < 2 ^ 32.
Notation step := (z_step token ingress initial D max buf min auth co).
Notation run := (z_run token ingress initial D max buf min auth co).
Notation fu := (first_unread buf).

(** At rest the application has obtained what was due. *)
Lemma rest_obtained evs c d : (forall cm, co = Some cm -> inverse_of D cm) -> Forall (input_fits co) evs -> in_touch (run evs) c d -> all_done (run evs) c d ->
  (forall t p, In (t, p) (announced evs) -> utf8 t) -> all_published (z_slog (run evs)) -> nothing_refused c (z_clog (run evs)) ->
  exists is, StronglySorted N.lt is /\ (forall i, In i is <-> due d (z_slog (run evs)) i) /\
    Forall2 (fun i q => nth_error (announced evs) (N.to_nat i) = Some q) is (obtained c (z_clog (run evs))).
Proof using TOK.
  intros INV F T (O1 & (x & X1 & X2 & X3 & X4) & (y & Y1 & Y2 & Y3) & (l & k & K1 & K2 & K3 & (K4 & K5 & K6) & _)) U Ap Nr.
  apply (obtained_due token ingress initial D max buf min auth co TOK evs c d INV (run_fit token ingress initial D max buf min auth co TOK evs F) U Ap).
  - exists l. auto.
  - exists l, k. auto 8.
  - pose proof (pub_is_run token ingress initial D max buf min auth co TOK evs) as Rs. destruct (PubDriverP4.run_tinv _ _ _ _ _ _ _ _ Rs) as [I _].
    apply (PubDriverP3.inv1_disj _ _ d I). unfold PubDriverP3.qconns. rewrite !in_app_iff. right. right. apply mget_keys. congruence.
  - intros i (x' & m & p & G & P & _). congruence.
  - exact Nr.
  - split; [intros x' G; congruence|exact O1].
Qed.
(** Message number [i] is the [i]-th call. *)
Lemma hist_announced evs : all_published (z_slog (run evs)) -> Forall2 (stands min co) (announced evs) (pb_hist (z_s (run evs))).
Proof using TOK.
  intros Ap. pose proof (pub_is_run token ingress initial D max buf min auth co TOK evs) as Rs. destruct (PubDriverP4.run_tinv _ _ _ _ _ _ _ _ Rs) as [_ T].
  rewrite (PubDriverP2.ti_hist _ _ _ T), <- (run_pubs token ingress initial D max buf min auth co evs). eapply run_published_all; [exact Rs|reflexivity|exact Ap].
Qed.
Lemma wanted_announced evs d i : all_published (z_slog (run evs)) ->
  (wanted (run evs) d i <-> exists t p, nth_error (announced evs) (N.to_nat i) = Some (t, p) /\ trie_contains (trie_run (ops_of d (z_slog (run evs)))) t = true).
Proof using TOK.
  intros Ap. pose proof (hist_announced evs Ap) as Fa. unfold wanted. split.
  - intros (p & H1 & H2). destruct (forall2_nth_l _ _ _ Fa _ _ H1) as ([t b] & N1 & (N2 & _)). exists t, b. split; [exact N1|]. cbn in N2. rewrite <- N2. exact H2.
  - intros (t & b & H1 & H2). assert (E : exists p, nth_error (pb_hist (z_s (run evs))) (N.to_nat i) = Some p).
    { destruct (nth_error (pb_hist (z_s (run evs))) (N.to_nat i)) eqn:E; [eauto|]. apply nth_error_None in E. apply forall2_len in Fa. assert (N.to_nat i < length (announced evs))%nat by (apply nth_error_Some; congruence). lia. }
    destruct E as (p & E). exists p. split; [exact E|]. destruct (forall2_nth_l _ _ _ Fa _ _ E) as ([t' b'] & N1 & (N2 & _)). rewrite N2. assert (t' = t) by congruence. subst. exact H2.
Qed.

(** What was obtained after [more], at rest again. *)
Lemma obtained_then evs more c d : (forall cm, co = Some cm -> inverse_of D cm) -> Forall (input_fits co) (evs ++ more) -> announced more = [] ->
  in_touch (run (evs ++ more)) c d -> all_done (run (evs ++ more)) c d -> ph buf d (run evs) (run (evs ++ more)) ->
  (forall t p, In (t, p) (announced evs) -> utf8 t) -> all_published (z_slog (run evs)) -> all_published (z_slog (run (evs ++ more))) -> nothing_refused c (z_clog (run (evs ++ more))) ->
  exists is, StronglySorted N.lt is /\
      (forall i, In i is <-> due d (z_slog (run evs)) i \/
         (fu (run evs) d <= i /\ exists t p, nth_error (announced evs) (N.to_nat i) = Some (t, p) /\ trie_contains (trie_run (ops_of d (z_slog (run evs)))) t = true)) /\
      Forall2 (fun i q => nth_error (announced evs) (N.to_nat i) = Some q) is (obtained c (z_clog (run (evs ++ more)))).
Proof using TOK.
  intros INV F' An M5 M6 M7 U Ap Ap' Nr'.
  assert (Ea : announced (evs ++ more) = announced evs) by (rewrite announced_app, An, app_nil_r; reflexivity).
  assert (U' : forall t p, In (t, p) (announced (evs ++ more)) -> utf8 t) by (rewrite Ea; exact U).
  destruct (rest_obtained (evs ++ more) c d INV F' M5 M6 U' Ap' Nr') as (is & I1 & I2 & I3). rewrite Ea in I3.
  exists is. split; [exact I1|]. split; [|exact I3].
  intros i. rewrite I2, (ph_due _ _ _ _ M7 i).
  assert (Et : fu (run (evs ++ more)) d = blen (pb_hist (z_s (run evs)))).
  { destruct M6 as (_ & _ & (y & Y1 & Y2 & Y3) & _). unfold first_unread. rewrite Y1, Y3, (ph_hist _ _ _ _ M7). destruct (N.ltb_spec (blen (pb_hist (z_s (run evs))) + bcast_cap buf) (blen (pb_hist (z_s (run evs))))); lia. }
  rewrite Et. rewrite (wanted_announced evs d i Ap). split; (intros [H|H]; [left; exact H|right]).
  - destruct H as (H1 & _ & H2). auto.
  - destruct H as (H1 & t & p & H2 & H3). split; [exact H1|]. split; [|exists t, p; auto].
    pose proof (forall2_len _ _ _ (hist_announced evs Ap)) as Ln. assert (N.to_nat i < length (announced evs))%nat by (apply nth_error_Some; congruence). unfold blen. lia.
Qed.

Theorem all_obtained evs c d now : 0 < ingress -> (forall cm, co = Some cm -> inverse_of D cm) -> now < 2 ^ 64 -> Forall (input_fits co) evs -> in_touch (run evs) c d ->
  (forall t p, In (t, p) (announced evs) -> utf8 t) -> all_published (z_slog (run evs)) -> nothing_refused c (z_clog (run evs)) ->
  exists more, Forall (helpful now c d) more /\ Forall (input_fits co) more /\ (length more <= work_to_do (run evs) c d)%nat /\
    near c d (run evs) (run (evs ++ more)) /\ in_touch (run (evs ++ more)) c d /\ all_done (run (evs ++ more)) c d /\
    all_published (z_slog (run (evs ++ more))) /\ nothing_refused c (z_clog (run (evs ++ more))) /\
    exists is, StronglySorted N.lt is /\
      (forall i, In i is <-> due d (z_slog (run evs)) i \/
         (fu (run evs) d <= i /\ exists t p, nth_error (announced evs) (N.to_nat i) = Some (t, p) /\ trie_contains (trie_run (ops_of d (z_slog (run evs)))) t = true)) /\
      Forall2 (fun i q => nth_error (announced evs) (N.to_nat i) = Some q) is (obtained c (z_clog (run (evs ++ more)))).
Proof using TOK.
  intros ING INV Nw F T U Ap Nr.
  destruct (way_ph token ingress initial D max buf min auth co TOK evs c d now ING INV Nw F T) as (more & M1 & M2 & M3 & M4 & M5 & M6 & M7).
  exists more. split; [exact M1|]. split; [exact M2|]. split; [exact M3|]. split; [exact M4|]. split; [exact M5|]. split; [exact M6|].
  assert (Ea : announced (evs ++ more) = announced evs) by (rewrite announced_app, (helpful_announced _ _ _ _ M1), app_nil_r; reflexivity).
  assert (Ap' : all_published (z_slog (run (evs ++ more)))).
  { destruct (nr_slog _ _ _ _ M4) as (o & Eo & Fo). destruct (fine_pub_published _ _ Fo) as [N1 N2]. rewrite Eo. destruct Ap as [A1 A2]. split; intros K; apply in_app_or in K; destruct K; auto. }
  assert (Nr' : nothing_refused c (z_clog (run (evs ++ more)))).
  { destruct (nr_clog _ _ _ _ M4) as (o & Eo & Fo). rewrite Eo. apply fine_refused; assumption. }
  split; [exact Ap'|]. split; [exact Nr'|].
  assert (F' : Forall (input_fits co) (evs ++ more)) by (apply Forall_app; auto).
  apply obtained_then; auto. eapply helpful_announced; exact M1.
Qed.

(** ** Publishing *)
Lemma zpubs_announced msgs : announced (zpubs msgs) = msgs.
Proof using. clear TOK. induction msgs as [|[t p] msgs IH]; [reflexivity|]. cbn [zpubs map announced flat_map]. fold (zpubs msgs). fold (announced (zpubs msgs)). rewrite IH. reflexivity. Qed.
Record pubd (z z' : zsys) (os : list qout) (n : nat) : Prop := mkPubd {
  pd_c : z_c z' = z_c z; pd_l : z_links z' = z_links z; pd_cc : z_ccids z' = z_ccids z; pd_sc : z_scids z' = z_scids z; pd_cl : z_clog z' = z_clog z;
  pd_closed : pb_closed (z_s z') = pb_closed (z_s z); pd_sess : pb_sess (z_s z') = pb_sess (z_s z); pd_len : length (pb_hist (z_s z')) = (length (pb_hist (z_s z)) + n)%nat;
  pd_sl : z_slog z' = z_slog z ++ os; pd_os : Forall (fun x => match x with QPublished _ => True | _ => False end) os }.
Lemma publish_all msgs : (forall t p, In (t, p) msgs -> publish_outgoing min co p <> None) -> forall evs, pb_closed (z_s (run evs)) = false -> exists os, pubd (run evs) (run (evs ++ zpubs msgs)) os (length msgs).
Proof using.
  clear TOK. induction msgs as [|[t p] msgs IH]; intros H evs Cl.
  { exists []. cbn [zpubs map]. rewrite app_nil_r. constructor; try reflexivity; [cbn; lia|symmetry; apply app_nil_r|constructor]. }
  assert (Hp : publish_outgoing min co p <> None) by (apply (H t p); left; reflexivity). destruct (publish_outgoing min co p) as [b|] eqn:Eb; [|congruence].
  assert (E : step (run evs) (ZPublish t p) = mkZ (z_c (run evs)) (mkPb (pb_active (z_s (run evs))) (pb_conns (z_s (run evs))) (pb_auths (z_s (run evs))) (pb_sess (z_s (run evs))) (pb_hist (z_s (run evs)) ++ [mkPm t b]) (pb_closed (z_s (run evs))) (pb_next_cid (z_s (run evs))) (pb_tx (z_s (run evs))))
     (z_links (run evs)) (z_backlog (run evs)) (z_scids (run evs)) (z_ccids (run evs)) (z_tasks (run evs)) (z_cevs (run evs)) (z_clog (run evs)) (z_sevs (run evs) ++ [WPublish t p]) (z_slog (run evs) ++ [QPublished (mkPm t b)])).
  { cbn [z_step]. unfold z_pub, pb_act, pb_send. rewrite Eb, Cl. reflexivity. }
  pose proof (run_snoc token ingress initial D max buf min auth co evs (ZPublish t p)) as Er. rewrite E in Er.
  destruct (IH (fun t p Hi => H t p (or_intror Hi)) (evs ++ [ZPublish t p])) as (os & [A1 A2 A3 A4 A5 A6 A7 A8 A9 A10]); [rewrite Er; exact Cl|].
  exists (QPublished (mkPm t b) :: os). change (zpubs ((t, p) :: msgs)) with ([ZPublish t p] ++ zpubs msgs). rewrite app_assoc.
  rewrite Er in A1, A2, A3, A4, A5, A6, A7, A8, A9. cbn [z_c z_s z_links z_ccids z_scids z_clog z_slog pb_closed pb_sess pb_hist] in A1, A2, A3, A4, A5, A6, A7, A8, A9.
  constructor; try assumption; [rewrite A8, app_length; cbn [length]; lia|rewrite A9, <- app_assoc; reflexivity|constructor; [exact I|exact A10]].
Qed.

(** A batch of messages published at rest. *)
Lemma batch_setup evs c d msgs : Forall (input_fits co) evs -> in_touch (run evs) c d ->
  (forall t p, In (t, p) (announced evs) -> utf8 t) -> all_published (z_slog (run evs)) -> nothing_refused c (z_clog (run evs)) ->
  (forall t p, In (t, p) msgs -> utf8 t /\ blen t < 2 ^ 16 /\ payload_fits co p /\ publish_outgoing min co p <> None) ->
  let e1 := evs ++ zpubs msgs in exists os, pubd (run evs) (run e1) os (length msgs) /\ Forall (input_fits co) e1 /\ announced e1 = announced evs ++ msgs /\ in_touch (run e1) c d /\
    (forall t p, In (t, p) (announced e1) -> utf8 t) /\ all_published (z_slog (run e1)) /\ nothing_refused c (z_clog (run e1)).
Proof using.
  clear TOK. intros F T U Ap Nr Hm e1.
  pose proof (proj1 (proj2 T)) as Cl.
  destruct (publish_all msgs (fun t p Hi => proj2 (proj2 (proj2 (Hm t p Hi)))) evs Cl) as (os & [A1 A2 A3 A4 A5 A6 A7 A8 A9 A10]).
  fold e1 in A1, A2, A3, A4, A5, A6, A7, A8, A9.
  assert (F1 : Forall (input_fits co) e1).
  { apply Forall_app. split; [exact F|]. apply Forall_forall. intros ev He. apply in_map_iff in He. destruct He as ([t p] & <- & Hi). destruct (Hm _ _ Hi) as (_ & B1 & B2 & _). split; assumption. }
  assert (Ea : announced e1 = announced evs ++ msgs) by (unfold e1; rewrite announced_app, zpubs_announced; reflexivity).
  assert (T1 : in_touch (run e1) c d). { unfold in_touch. rewrite A1, A2, A3, A4, A6, A7. exact T. }
  assert (U1 : forall t p, In (t, p) (announced e1) -> utf8 t) by (rewrite Ea; intros t p Hi; apply in_app_or in Hi; destruct Hi as [Hi|Hi]; [eapply U; exact Hi|exact (proj1 (Hm _ _ Hi))]).
  assert (Po : forall u, In u os -> exists m, u = QPublished m) by (rewrite Forall_forall in A10; intros u Hu; specialize (A10 _ Hu); destruct u; try contradiction; eauto).
  assert (Ap1 : all_published (z_slog (run e1))). { rewrite A9. destruct Ap as [B1 B2]. split; intros K; apply in_app_or in K; destruct K as [K|K]; auto; destruct (Po _ K); discriminate. }
  assert (Nr1 : nothing_refused c (z_clog (run e1))) by (rewrite A5; exact Nr).
  exists os. split; [constructor; assumption|]. auto 10.
Qed.
Lemma batch_list evs c d msgs got is os : (forall cm, co = Some cm -> inverse_of D cm) -> Forall (input_fits co) evs -> in_touch (run evs) c d -> all_done (run evs) c d ->
  (forall t p, In (t, p) (announced evs) -> utf8 t) -> all_published (z_slog (run evs)) -> nothing_refused c (z_clog (run evs)) ->
  blen msgs <= bcast_cap buf ->
  let e1 := evs ++ zpubs msgs in pubd (run evs) (run e1) os (length msgs) -> announced e1 = announced evs ++ msgs ->
  StronglySorted N.lt is ->
  (forall i, In i is <-> due d (z_slog (run e1)) i \/
         (fu (run e1) d <= i /\ exists t p, nth_error (announced e1) (N.to_nat i) = Some (t, p) /\ trie_contains (trie_run (ops_of d (z_slog (run e1)))) t = true)) ->
  Forall2 (fun i q => nth_error (announced e1) (N.to_nat i) = Some q) is got ->
  got = obtained c (z_clog (run evs)) ++ filter (fun q => trie_contains (trie_run (ops_of d (z_slog (run evs)))) (fst q)) msgs.
Proof using TOK.
  intros INV F T Dn U Ap Nr Bm e1 [A1 A2 A3 A4 A5 A6 A7 A8 A9 A10] Ea I1 I2 I3.
  assert (Po : forall u, In u os -> exists m, u = QPublished m) by (rewrite Forall_forall in A10; intros u Hu; specialize (A10 _ Hu); destruct u; try contradiction; eauto).
  destruct (rest_obtained evs c d INV F T Dn U Ap Nr) as (is0 & J1 & J2 & J3).
  pose proof (forall2_len _ _ _ (hist_announced evs Ap)) as Ln.
  pose proof (pub_is_run token ingress initial D max buf min auth co TOK evs) as Rs. destruct (PubDriverP4.run_tinv _ _ _ _ _ _ _ _ Rs) as [_ Ti].
  assert (Oo : ops_of d os = []). { clear - Po. induction os as [|u os IH]; [reflexivity|]. destruct (Po u (or_introl eq_refl)) as (m & ->). cbn [ops_of flat_map app]. apply IH. intros v Hv. apply Po. right. exact Hv. }
  set (f := trie_contains (trie_run (ops_of d (z_slog (run evs))))) in *.
  assert (Efu : fu (run e1) d = blen (announced evs)).
  { destruct Dn as (_ & _ & (y & Y1 & Y2 & Y3) & _). unfold first_unread. rewrite A7, Y1, Y3. unfold blen in *. rewrite A8. destruct (N.ltb_spec (N.of_nat (length (pb_hist (z_s (run evs)))) + bcast_cap buf) (N.of_nat (length (pb_hist (z_s (run evs))) + length msgs))); lia. }
  assert (Lt : Forall (fun i => i < blen (announced evs)) is0).
  { apply Forall_forall. intros i Hi. apply J2 in Hi. destruct Hi as (b & a & p & E & M & _). apply PubDriverP2.message_lt in M. rewrite <- (PubDriverP2.ti_hist _ _ _ Ti) in M. unfold blen in *. lia. }
  destruct (places_ge f msgs (blen (announced evs))) as [P1 P2].
  assert (Eis : is = is0 ++ places f (blen (announced evs)) msgs).
  { apply sorted_unique; [exact I1|eapply sorted_app; eassumption|]. intros i. rewrite I2, in_app_iff, J2, places_in, A9, PubDriverP2.ops_of_app, Oo, app_nil_r. fold f.
    rewrite (PubDriverP2.due_app_old d (z_slog (run evs)) os i (PubDriverP2.ti_took _ _ _ Ti)) by (intros u j Hj; destruct (Po _ Hj); discriminate).
    rewrite Efu. split; (intros [H|(H1 & t & p & H2 & H3)]; [left; exact H|right; split; [exact H1|exists t, p; split; [|exact H3]]]).
    - rewrite Ea, nth_error_app2 in H2 by (unfold blen in *; lia). rewrite <- H2. f_equal. unfold blen. lia.
    - rewrite Ea, nth_error_app2 by (unfold blen in *; lia). rewrite <- H2. f_equal. unfold blen. lia. }
  subst is. rewrite Ea in I3. eapply forall2_nth_unique; [exact I3|]. apply Forall2_app.
  - rewrite <- (app_nil_r (announced evs ++ msgs)). eapply forall2_mono; [|exact J3]. intros i q Hi _ Hn. rewrite app_nil_r. rewrite nth_error_app1; [exact Hn|]. apply nth_error_Some. congruence.
  - apply places_obtained. reflexivity.
Qed.
(** A batch of messages published at rest: the application gets those the filter lets through, after what it has got. *)
Theorem batch evs c d now msgs : 0 < ingress -> (forall cm, co = Some cm -> inverse_of D cm) -> now < 2 ^ 64 -> Forall (input_fits co) evs -> in_touch (run evs) c d -> all_done (run evs) c d ->
  (forall t p, In (t, p) (announced evs) -> utf8 t) -> all_published (z_slog (run evs)) -> nothing_refused c (z_clog (run evs)) ->
  blen msgs <= bcast_cap buf -> (forall t p, In (t, p) msgs -> utf8 t /\ blen t < 2 ^ 16 /\ payload_fits co p /\ publish_outgoing min co p <> None) ->
  exists more, Forall (helpful now c d) more /\
    let z' := run (evs ++ zpubs msgs ++ more) in
    in_touch z' c d /\ all_done z' c d /\ all_published (z_slog z') /\ nothing_refused c (z_clog z') /\
    sb_topics (z_c z') = sb_topics (z_c (run evs)) /\ sb_cmdq (z_c z') = sb_cmdq (z_c (run evs)) /\
    obtained c (z_clog z') = obtained c (z_clog (run evs)) ++ filter (fun q => trie_contains (trie_run (ops_of d (z_slog (run evs)))) (fst q)) msgs.
Proof using TOK.
  intros ING INV Nw F T Dn U Ap Nr Bm Hm.
  destruct (batch_setup evs c d msgs F T U Ap Nr Hm) as (os & Pd & F1 & Ea & T1 & U1 & Ap1 & Nr1). set (e1 := evs ++ zpubs msgs) in *. pose proof Pd as [A1 _ _ _ _ _ _ _ _ _].
  destruct (all_obtained e1 c d now ING INV Nw F1 T1 U1 Ap1 Nr1) as (more & M1 & M2 & M3 & M4 & M5 & M6 & M7 & M8 & (is & I1 & I2 & I3)).
  exists more. split; [exact M1|]. rewrite app_assoc. fold e1. cbv zeta. split; [exact M5|]. split; [exact M6|]. split; [exact M7|]. split; [exact M8|].
  split; [rewrite (nr_topics _ _ _ _ M4), A1; reflexivity|]. split; [rewrite (nr_cmdq _ _ _ _ M4), A1; reflexivity|].
  eapply batch_list; eassumption.
Qed.
End Z.
