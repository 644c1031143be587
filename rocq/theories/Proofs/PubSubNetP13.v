(** The joint model of a subscriber and a publisher socket in touch: which messages become due on the way to rest. *)
From Coq Require Import ZArith Permutation Sorting.Sorted.
From Verif Require Import Model.Base Model.Map Model.Framed Model.WirePubSub Model.WireAuth Model.Compression Model.Handshake Model.JoinMap Model.Backoff Model.Trie Model.PubDriver Model.SubDriver Model.Net Model.PubSubNet
  Spec.Wire Spec.Stream Spec.CompressSpec Spec.PubSpec Spec.SubSpec Spec.Utf8Spec Spec.NetSpec2 Spec.NetSpec6
  Proofs.BaseP Proofs.MapP Proofs.PubSubP Proofs.PubSubNetP Proofs.PubNetP Proofs.SubNetP Proofs.PubSubNetP2 Proofs.PubSubNetP3 Proofs.PubSubNetP5 Proofs.PubSubNetP6 Proofs.PubSubNetP7 Proofs.PubSubNetP9 Proofs.PubSubNetP10 Proofs.PubSubNetP11 Proofs.PubSubNetP12.
From Verif Require Proofs.PubDriverP Proofs.PubDriverP2 Proofs.PubDriverP3 Proofs.PubDriverP4 Proofs.SubDriverP Proofs.SubDriverP2 Proofs.SubDriverP4.
Local Open Scope N_scope.

Section Z.
Variables (token : option bytes) (ingress initial : N) (D : decompressors)
          (max : option N) (buf min : N) (auth : option (bytes -> bool)) (co : option compressor).
Hypothesis TOK : forall t, token = Some t -> blen t < 2 ^ 32.
Notation step := (z_step token ingress initial D max buf min auth co).
Notation run := (z_run token ingress initial D max buf min auth co).
Notation fu := (first_unread buf).

(** What the session of [d] looks at between two states. *)
Definition wanted (z : zsys) (d i : N) : Prop := exists p, nth_error (pb_hist (z_s z)) (N.to_nat i) = Some p /\ trie_contains (trie_run (ops_of d (z_slog z))) (pm_topic p) = true.
Record ph (d : N) (z z' : zsys) : Prop := mkPh {
  ph_hist : pb_hist (z_s z') = pb_hist (z_s z);
  ph_le : fu z d <= fu z' d; ph_le' : fu z' d <= blen (pb_hist (z_s z));
  ph_due : forall i, due d (z_slog z') i <-> due d (z_slog z) i \/ (fu z d <= i /\ i < fu z' d /\ wanted z d i);
  ph_ops : ops_of d (z_slog z') = ops_of d (z_slog z) \/ fu z' d = blen (pb_hist (z_s z)) }.
Lemma fu_le evs d : fu (run evs) d <= blen (pb_hist (z_s (run evs))).
Proof using TOK.
  pose proof (pub_is_run token ingress initial D max buf min auth co TOK evs) as Rs. destruct (PubDriverP4.run_tinv _ _ _ _ _ _ _ _ Rs) as [_ T].
  unfold first_unread. destruct (mget d (pb_sess (z_s (run evs)))) as [y|] eqn:Y; [|lia]. destruct (_ <? _); [lia|].
  rewrite (PubDriverP2.ti_hist _ _ _ T). exact (PubDriverP2.si_pos _ _ _ (PubDriverP2.ti_sess _ _ _ T _ _ Y)).
Qed.
Lemma ph_same evs d z' : pb_hist (z_s z') = pb_hist (z_s (run evs)) -> z_slog z' = z_slog (run evs) -> fu z' d = fu (run evs) d -> ph d (run evs) z'.
Proof using TOK.
  intros E1 E2 E3. constructor; [exact E1|lia|rewrite E3; apply fu_le| |left; rewrite E2; reflexivity].
  intros i. rewrite E2, E3. split; [auto|]. intros [H|(A & B & _)]; [exact H|lia].
Qed.
Lemma ph_trans d a b e : ph d a b -> ph d b e -> ph d a e.
Proof using.
  clear TOK. intros [A1 A2 A3 A4 A5] [B1 B2 B3 B4 B5]. rewrite A1 in B1, B3, B5. constructor; [exact B1|lia|exact B3| |].
  - intros i. rewrite B4, A4. assert (Wb : fu b d <= i -> i < fu e d -> (wanted b d i <-> wanted a d i)).
    { intros H1 H2. destruct A5 as [A5|A5]; [|exfalso; lia]. unfold wanted. rewrite A1, A5. tauto. }
    destruct (N.lt_ge_cases i (fu b d)) as [Hi|Hi].
    + split; [intros [[H|(H1 & H2 & H3)]|(H1 & _)]|intros [H|(H1 & H2 & H3)]]; try lia; auto. right. split; [exact H1|]. split; [lia|exact H3].
    + split; [intros [[H|(H1 & H2 & H3)]|(H1 & H2 & H3)]|intros [H|(H1 & H2 & H3)]]; try lia; auto.
      * right. split; [lia|]. split; [exact H2|]. apply Wb; assumption.
      * right. split; [exact Hi|]. split; [exact H2|]. apply Wb; assumption.
  - destruct B5 as [B5|B5]; [|right; exact B5]. destruct A5 as [A5|A5]; [left; congruence|right; lia].
Qed.

(** An iteration of the session. *)
Lemma sess_ph evs d e z0 y s' os : z_s z0 = z_s (run evs) -> z_slog z0 = z_slog (run evs) -> mget d (pb_sess (z_s (run evs))) = Some y -> pb_closed (z_s (run evs)) = false ->
  pb_act max buf min auth co (z_s (run evs)) (WSession d e) = (s', os) -> mget d (pb_sess s') <> None ->
  ph d (run evs) (z_pub max buf min auth co (WSession d e) z0).
Proof using TOK.
  intros Z1 Z2 Y Cl A Al. unfold z_pub. rewrite Z1, A. set (z := run evs) in *. rewrite Z2.
  pose proof (pub_is_run token ingress initial D max buf min auth co TOK evs) as Rs. destruct (PubDriverP4.run_tinv _ _ _ _ _ _ _ _ Rs) as [I T]. fold z in I, T.
  pose proof (PubDriverP2.ti_hist _ _ _ T) as Th. pose proof (PubDriverP2.ti_took _ _ _ T) as Tk. pose proof (PubDriverP2.ti_sess _ _ _ T _ _ Y) as Sy. pose proof (PubDriverP2.si_pos _ _ _ Sy) as Hp. rewrite <- Th in Hp. pose proof (PubDriverP2.si_filter _ _ _ Sy) as Hf.
  unfold pb_act, pb_session in A. rewrite Y in A. destruct (sn_iter buf d e (pb_hist (z_s z)) (pb_closed (z_s z)) y) as [[[y' dt] o] r] eqn:It.
  assert (Cp : 0 < bcast_cap buf) by (unfold bcast_cap; apply N.neq_0_lt_0, N.pow_nonzero; discriminate).
  assert (K : (r = SCont \/ r = SPend) /\ os = o /\ pb_sess s' = mset d y' (pb_sess (z_s z)) /\ pb_hist s' = pb_hist (z_s z)).
  { destruct r; inversion A; subst; cbn [pb_decr pb_with_active pb_sess] in Al; rewrite ?mget_del_eq in Al; try (exfalso; apply Al; reflexivity); auto. }
  destruct K as (Hr & -> & Es & Eh). clear A Al.
  assert (Fz : fu z d = if sn_pos y + bcast_cap buf <? blen (pb_hist (z_s z)) then blen (pb_hist (z_s z)) - bcast_cap buf else sn_pos y) by (unfold first_unread; rewrite Y; reflexivity).
  set (z' := mkZ _ s' _ _ _ _ _ _ _ _ _).
  assert (Fz' : fu z' d = if sn_pos y' + bcast_cap buf <? blen (pb_hist (z_s z)) then blen (pb_hist (z_s z)) - bcast_cap buf else sn_pos y').
  { unfold first_unread, z'. cbn [z_s]. rewrite Es, mget_set_eq, Eh. reflexivity. }
  assert (Ez : z_slog z' = z_slog z ++ o) by reflexivity. assert (Ehz : pb_hist (z_s z') = pb_hist (z_s z)) by exact Eh.
  clearbody z'.
  (* no QTook: nothing changes, or a control frame at the tail *)
  assert (quiet : fu z' d = fu z d -> (forall u i, ~ In (QTook u i) o) -> ops_of d o = [] \/ fu z' d = blen (pb_hist (z_s z)) -> ph d z z').
  { intros E1 Ht Ho. constructor; [exact Ehz|lia|rewrite E1; apply fu_le| |].
    - intros i. rewrite Ez. assert (Ht' : forall c0 i0, In (QTook c0 i0) o -> c0 <> d) by (intros c0 i0 H; exfalso; exact (Ht _ _ H)). rewrite (PubDriverP2.due_app_old d _ o i Tk Ht'). split; [auto|]. intros [H|(H1 & H2 & _)]; [exact H|lia].
    - destruct Ho as [Ho|Ho]; [left; rewrite Ez, PubDriverP2.ops_of_app, Ho, app_nil_r; reflexivity|right; exact Ho]. }
  unfold sn_iter in It. cbn [sn_pending sn_pos sn_seq sn_filter] in It.
  destruct (s_ready e).
  2: { inversion It; subst. apply quiet; [rewrite Fz', Fz; reflexivity|intros u i []|left; reflexivity]. }
  destruct (sn_pending y) as [m|].
  { destruct (s_send e); inversion It; subst; [|destruct Hr; discriminate]. apply quiet; [rewrite Fz', Fz; reflexivity|intros u i [H|[]]; discriminate|left; reflexivity]. }
  unfold bcast_recv in It. destruct (N.eqb_spec (sn_pos y) (blen (pb_hist (z_s z)))) as [Ep|Ep].
  { rewrite Cl in It. destruct (s_next e) as [m| | |]; inversion It; subst; try (destruct Hr; discriminate).
    - apply quiet; [rewrite Fz', Fz; reflexivity|intros u i [H|[]]; discriminate|]. right. rewrite Fz'. cbn [sn_pos]. destruct (N.ltb_spec (sn_pos y + bcast_cap buf) (blen (pb_hist (z_s z)))); lia.
    - apply quiet; [rewrite Fz', Fz; reflexivity|intros u i []|left; reflexivity]. }
  destruct (N.ltb_spec (sn_pos y + bcast_cap buf) (blen (pb_hist (z_s z)))) as [Lg|Lg].
  { inversion It; subst. apply quiet; [|intros u i [H|[]]; discriminate|left; reflexivity]. rewrite Fz', Fz. cbn [sn_pos]. destruct (N.ltb_spec (blen (pb_hist (z_s z)) - bcast_cap buf + bcast_cap buf) (blen (pb_hist (z_s z)))); lia. }
  destruct (nth_error (pb_hist (z_s z)) (N.to_nat (sn_pos y))) as [p|] eqn:En; [|apply nth_error_None in En; unfold blen in *; lia].
  assert (Ko : o = [QTook d (sn_pos y)] /\ sn_pos y' = sn_pos y + 1).
  { destruct (trie_contains (sn_filter y) (pm_topic p)); [destruct (pub_into_wire _ _ _ _)|]; inversion It; subst; try (destruct Hr; discriminate); auto. }
  destruct Ko as (-> & Ey). rewrite Ey in Fz'. clear It.
  assert (Fe : fu z' d = sn_pos y + 1) by (rewrite Fz'; destruct (N.ltb_spec (sn_pos y + 1 + bcast_cap buf) (blen (pb_hist (z_s z)))); lia).
  assert (Mj : message (z_slog z) (sn_pos y) = Some p) by (unfold message; rewrite <- Th; exact En).
  constructor; [exact Ehz|lia|lia| |left; rewrite Ez, PubDriverP2.ops_of_app; apply app_nil_r].
  intros i. rewrite Ez, (PubDriverP2.due_app_took _ _ _ _ i Tk Mj), Fz, Fe. split; (intros [H|H]; [left; exact H|right]).
  - destruct H as [-> H]. split; [lia|]. split; [lia|]. exists p. auto.
  - destruct H as (H1 & H2 & (q & H3 & H4)). assert (i = sn_pos y) by lia. subst i. split; [reflexivity|]. congruence.
Qed.

Lemma step_ph' evs ev c d : match ev with ZTake | ZEntry _ _ | ZSub _ _ _ => True | ZPub cid _ _ => cid = d | _ => False end -> in_touch (run evs) c d -> in_touch (step (run evs) ev) c d -> ph d (run evs) (step (run evs) ev).
Proof using TOK.
  intros He (_ & Cl & _ & (y & Y) & _) (_ & _ & _ & (y' & Y') & _). destruct ev; try contradiction; cbn [z_step] in *.
  - apply ph_same; unfold z_sub; destruct (sb_act _ _ _ _ _ _); reflexivity.
  - apply ph_same; unfold z_sub; destruct (sb_act _ _ _ _ _ _); reflexivity.
  - apply ph_same; unfold z_subsess, z_sub; repeat match goal with |- context [match ?m with _ => _ end] => destruct m; try reflexivity end.
  - subst cid. unfold z_pubsess in *. rewrite Y in *.
    assert (K : forall e' z0, z_s z0 = z_s (run evs) -> z_slog z0 = z_slog (run evs) -> mget d (pb_sess (z_s (z_pub max buf min auth co (WSession d e') z0))) = Some y' -> ph d (run evs) (z_pub max buf min auth co (WSession d e') z0)).
    { intros e' z0 Q1 Q2 Q3. destruct (pb_act max buf min auth co (z_s (run evs)) (WSession d e')) as [s' os] eqn:A. eapply sess_ph; [exact Q1|exact Q2|exact Y|exact Cl|exact A|].
      unfold z_pub in Q3. rewrite Q1, A in Q3. cbn [z_s] in Q3. congruence. }
    destruct (z_link_of d (z_scids (run evs)) (run evs)) as [[l k]|]; [|apply K; auto].
    destruct (s_wants_next buf e (z_s (run evs)) y); [|apply K; auto].
    destruct (pipe_offers input (en_in (lk_s k))); [|apply ph_same; reflexivity]. destruct (ps_poll input (lk_s k)) as [r b]. apply K; auto.
Qed.

Lemma step_ph evs ev c d now : helpful now c d ev -> in_touch (run evs) c d -> in_touch (step (run evs) ev) c d -> ph d (run evs) (step (run evs) ev).
Proof using TOK. intros He. apply step_ph'. destruct ev; try contradiction; try exact I. apply He. Qed.

Theorem way_ph evs c d now : 0 < ingress -> (forall cm, co = Some cm -> inverse_of D cm) -> now < 2 ^ 64 -> Forall (input_fits co) evs -> in_touch (run evs) c d ->
  exists more, Forall (helpful now c d) more /\ Forall (input_fits co) more /\ (length more <= work_to_do (run evs) c d)%nat /\
    near c d (run evs) (run (evs ++ more)) /\ in_touch (run (evs ++ more)) c d /\ all_done (run (evs ++ more)) c d /\ ph d (run evs) (run (evs ++ more)).
Proof using TOK.
  intros ING INV Nw. remember (work_to_do (run evs) c d) as n eqn:En. revert evs En.
  induction n as [n IH] using lt_wf_ind. intros evs En F T.
  destruct (progress token ingress initial D max buf min auth co TOK evs c d now ING INV Nw F T) as [Dn|(ev & He & Fe & (Nr & T' & Wk))].
  - exists []. rewrite app_nil_r. split; [constructor|]. split; [constructor|]. split; [cbn; lia|]. split; [apply near_refl|]. split; [exact T|]. split; [exact Dn|]. apply ph_same; reflexivity.
  - assert (F' : Forall (input_fits co) (evs ++ [ev])) by (apply Forall_app; split; [exact F|repeat constructor; exact Fe]).
    destruct (IH (work_to_do (run (evs ++ [ev])) c d) ltac:(lia) (evs ++ [ev]) eq_refl F' T') as (more & M1 & M2 & M3 & M4 & M5 & M6 & M7).
    assert (P1 : ph d (run evs) (run (evs ++ [ev]))). { rewrite run_snoc in T' |- *. eapply step_ph; eassumption. }
    exists (ev :: more). rewrite <- app_assoc in M4, M5, M6, M7. cbn [app] in M4, M5, M6, M7. split; [constructor; assumption|]. split; [constructor; assumption|]. split; [cbn [length]; lia|].
    split; [eapply near_trans; eassumption|]. split; [exact M5|]. split; [exact M6|]. eapply ph_trans; eassumption.
Qed.
End Z.
