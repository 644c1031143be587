(** The joint model of a subscriber and a publisher socket in touch: every fair schedule comes to rest. *)
From Coq Require Import ZArith Permutation Sorting.Sorted Wf_nat.
From Verif Require Import Model.Base Model.Map Model.Framed Model.WirePubSub Model.WireAuth Model.Compression Model.Handshake Model.JoinMap Model.Backoff Model.Trie Model.PubDriver Model.SubDriver Model.Net Model.PubSubNet
  Spec.Wire Spec.Stream Spec.CompressSpec Spec.PubSpec Spec.SubSpec Spec.Utf8Spec Spec.NetSpec2 Spec.NetSpec6 Spec.NetSpec8
  Proofs.BaseP Proofs.MapP Proofs.PubSubP Proofs.NetP Proofs.PubSubNetP Proofs.PubNetP Proofs.SubNetP Proofs.PubSubNetP2 Proofs.PubSubNetP3 Proofs.PubSubNetP5 Proofs.PubSubNetP6 Proofs.PubSubNetP7 Proofs.PubSubNetP10 Proofs.PubSubNetP11 Proofs.PubSubNetP12 Proofs.PubSubNetP13 Proofs.PubSubNetP14 Proofs.PubSubNetP16.
From Verif Require Proofs.PubDriverP2 Proofs.PubDriverP4.
Local Open Scope N_scope.

Lemma fine_busy_refused c l o : Forall (fine_sub_busy c) o -> nothing_refused c l -> nothing_refused c (l ++ o).
Proof.
  rewrite Forall_forall. intros H (A1 & A2 & A3 & A4). repeat split.
  - intros m now r K. apply in_app_or in K. destruct K as [K|K]; [eapply A1; exact K|]. destruct (H _ K) as [X|X]; [|discriminate]. destruct r; try contradiction. reflexivity.
  - intros m a p r K. apply in_app_or in K. destruct K as [K|K]; [eapply A2; exact K|]. destruct (H _ K) as [X|X]; [|discriminate]. destruct r; try contradiction. reflexivity.
  - intros (lost & K). apply in_app_or in K. destruct K as [K|K]; [apply A3; exists lost; exact K|]. destruct (H _ K) as [X|X]; [exact X|discriminate].
  - intros K. apply in_app_or in K. destruct K as [K|K]; [exact (A4 K)|]. destruct (H _ K) as [X|X]; [exact X|discriminate].
Qed.
Lemma part_announced c d z ev evs : does_part c d z ev -> announced (evs ++ [ev]) = announced evs.
Proof. intros H. rewrite announced_app. destruct ev; try contradiction; apply app_nil_r. Qed.

Section Z.
Variables (token : option bytes) (ingress initial : N) (D : decompressors)
          (max : option N) (buf min : N) (auth : option (bytes -> bool)) (co : option compressor).
Hypothesis TOK : forall t, token = Some t -> blen t < 2 ^ 32.
Hypothesis INV : forall cm, co = Some cm -> inverse_of D cm.
Notation step := (z_step token ingress initial D max buf min auth co).
Notation run := (z_run token ingress initial D max buf min auth co).

Lemma zero_done evs c d l k x y : Forall (input_fits co) evs -> parts (run evs) c d l k x y -> core_work (core_of (run evs) x y k) = 0%nat -> all_done (run evs) c d.
Proof using TOK.
  intros F P. unfold core_work, core_of. cbn [co_out co_in co_cmds co_eg co_un co_pend co_w1 co_w2]. intros Z.
  destruct (logs token ingress initial D max buf min auth co TOK _ _ _ _ _ _ _ F P) as (_ & _ & _ & _ & (r1 & P1) & (r2 & P2) & O1 & O2 & LK). destruct (hs_both token auth k LK O1 O2) as [Hs Hc].
  pose proof (pub_is_run token ingress initial D max buf min auth co TOK evs) as Rs. destruct (PubDriverP4.run_tinv _ _ _ _ _ _ _ _ Rs) as [_ T].
  destruct P as [H1 H2 X1 X2 X3 Y K1 K2 K3 K4].
  assert (Hp : sn_pos y <= blen (pb_hist (z_s (run evs)))) by (rewrite (PubDriverP2.ti_hist _ _ _ T); exact (PubDriverP2.si_pos _ _ _ (PubDriverP2.ti_sess _ _ _ T _ _ Y))).
  assert (L0 : forall (A : Type) (q : list A), length q = 0%nat -> q = []) by (intros A [|]; [reflexivity|discriminate]).
  rewrite P1, P2, !app_length in Z.
  assert (R1 : r1 = []) by (apply L0; lia). assert (R2 : r2 = []) by (apply L0; lia). subst r1 r2. rewrite app_nil_r in P1, P2.
  split; [apply L0; lia|]. split; [exists x; split; [exact X1|]; repeat split; apply L0; lia|].
  split; [exists y; split; [exact Y|]; split; [destruct (sn_pending y); [lia|reflexivity]|unfold blen in *; lia]|].
  exists l, k. split; [exact K1|]. split; [exact K2|]. split; [exact K3|]. split; [exact (all_items _ _ (proj1 (proj2 LK)) Hc (eq_sym P1))|exact (all_items _ _ (proj1 LK) Hs (eq_sym P2))].
Qed.

Section F.
Variables (evs : list zev) (c d l : N) (sched : nat -> zev).
Notation at_ n := (run (then_goes_on evs sched n)).
Hypothesis FIT : Forall (input_fits co) evs.
Hypothesis START : exists k x y, parts (run evs) c d l k x y.
Hypothesis LOAD : buffers_suffice ingress buf (run evs) c d.

Lemma follow_S n : then_goes_on evs sched (S n) = then_goes_on evs sched n ++ [sched n].
Proof using. clear. unfold then_goes_on. rewrite seq_S, map_app, app_assoc. reflexivity. Qed.
Record good_at (n : nat) : Prop := mkGA {
  ga_fit : Forall (input_fits co) (then_goes_on evs sched n);
  ga_ann : announced (then_goes_on evs sched n) = announced evs;
  ga_parts : exists k x y, parts (at_ n) c d l k x y;
  ga_load : buffers_suffice ingress buf (at_ n) c d;
  ga_kept : kept c d (run evs) (at_ n);
  ga_ph : ph buf d (run evs) (at_ n) }.
Definition has (n : nat) (o : core) (b : nat) : Prop := exists k x y, parts (at_ n) c d l k x y /\ core_of (at_ n) x y k = o /\ todo k = b.

Lemma good_0 : good_at 0.
Proof using TOK FIT START LOAD.
  assert (E : then_goes_on evs sched 0 = evs) by (unfold then_goes_on; apply app_nil_r). constructor; rewrite ?E; auto; [apply kept_refl|]. apply ph_same; auto.
Qed.
Lemma has_S n o b : good_at n -> does_part c d (at_ n) (sched n) -> has n o b ->
  exists o' b', has (S n) o' b' /\ (better_by o o' b b' \/ (o' = o /\ b' = b /\ ~ strict c d (at_ n) o (sched n))).
Proof using TOK INV.
  intros G J (k & x & y & P & <- & <-).
  destruct (part_moved token ingress initial D max buf min auth co TOK _ c d l k x y _ INV (ga_fit _ G) P (ga_load _ G) J) as (k' & x' & y' & P' & _ & _ & _ & _ & M).
  rewrite <- follow_S in P', M. exists (core_of (at_ (S n)) x' y' k'), (todo k'). split; [exists k', x', y'; auto|]. exact M.
Qed.
Lemma good_S n : good_at n -> does_part c d (at_ n) (sched n) -> good_at (S n).
Proof using TOK INV.
  intros G J. destruct (ga_parts _ G) as (k & x & y & P).
  destruct (part_moved token ingress initial D max buf min auth co TOK _ c d l k x y _ INV (ga_fit _ G) P (ga_load _ G) J) as (k' & x' & y' & P' & Kp & _ & L1 & L2 & _).
  assert (Ph : ph buf d (at_ n) (run (then_goes_on evs sched n ++ [sched n]))).
  { rewrite run_snoc. eapply (step_ph' token ingress initial D max buf min auth co TOK _ _ c d).
    - destruct (sched n); try contradiction; try exact I. apply J.
    - exact (of_parts _ _ _ _ _ _ _ P).
    - rewrite <- run_snoc. exact (of_parts _ _ _ _ _ _ _ P'). }
  rewrite <- follow_S in P', Kp, L1, L2, Ph. destruct (ga_load _ G) as [B1 B2]. constructor.
  - rewrite follow_S. apply Forall_app. split; [apply G|]. constructor; [eapply part_fits; exact J|constructor].
  - rewrite follow_S. erewrite part_announced by exact J. apply G.
  - exists k', x', y'. exact P'.
  - unfold buffers_suffice. split; lia.
  - eapply kept_trans; [apply G|exact Kp].
  - eapply ph_trans; [apply G|exact Ph].
Qed.
Hypothesis FAIR : fair_pubsub c d (fun n => at_ n) sched.
Lemma good_all n : good_at n.
Proof using TOK INV FIT START LOAD FAIR. induction n as [|n IH]; [apply good_0|apply good_S; [exact IH|apply FAIR]]. Qed.

Lemma until n o b j : has n o b -> (exists m o' b', has m o' b' /\ better_by o o' b b') \/ has (n + j) o b.
Proof using TOK INV FIT START LOAD FAIR.
  intros H. induction j as [|j IH]; [right; rewrite Nat.add_0_r; exact H|]. destruct IH as [IH|IH]; [left; exact IH|].
  destruct (has_S (n + j) o b (good_all _) (proj1 FAIR _) IH) as (o' & b' & H' & [M|(-> & -> & _)]); [left; exists (S (n + j)), o', b'; auto|right]. rewrite Nat.add_succ_r. exact H'.
Qed.
Lemma turn_comes n m o b : (n <= m)%nat -> has n o b -> strict c d (at_ m) o (sched m) -> exists m o' b', has m o' b' /\ better_by o o' b b'.
Proof using TOK INV FIT START LOAD FAIR.
  intros Le H St. destruct (until n o b (m - n) H) as [X|X]; [exact X|]. replace (n + (m - n))%nat with m in X by lia.
  destruct (has_S m o b (good_all _) (proj1 FAIR _) X) as (o' & b' & H' & [M|(_ & _ & Ns)]); [exists (S m), o', b'; auto|destruct (Ns St)].
Qed.
Lemma nearer n o b : has n o b -> core_work o = 0%nat \/ exists m o' b', has m o' b' /\ better_by o o' b b'.
Proof using TOK INV FIT START LOAD FAIR.
  intros H. pose proof FAIR as (_ & FT & FD & FS & FP).
  destruct (Nat.eq_dec (co_out o) 0) as [Z1|K]; [|right; destruct (FT n) as (m & Le & E); apply (turn_comes n m o b Le H); left; auto].
  destruct (Nat.eq_dec (co_in o) 0) as [Z2|K]; [|right; destruct (FD n) as (m & Le & E); apply (turn_comes n m o b Le H); right; left; auto].
  destruct (Nat.eq_dec (co_cmds o + co_eg o + co_w1 o) 0) as [Z3|K]; [|right; destruct (FS n) as (m & Le & E); apply (turn_comes n m o b Le H); right; right; left; auto].
  destruct (Nat.eq_dec (co_un o + co_pend o + co_w2 o) 0) as [Z4|K]; [|right; destruct (FP n) as (m & Le & E); apply (turn_comes n m o b Le H); right; right; right; auto].
  left. unfold core_work. lia.
Qed.
Lemma some_rest : exists n o b, has n o b /\ core_work o = 0%nat.
Proof using TOK INV FIT START LOAD FAIR.
  assert (K : forall w b0 n o b, core_work o = w -> b = b0 -> has n o b -> exists n o b, has n o b /\ core_work o = 0%nat).
  { induction w as [w IHw] using lt_wf_ind. induction b0 as [b0 IHb] using lt_wf_ind. intros n o b Ew Eb H. destruct (nearer n o b H) as [R|(m & o' & b' & H' & [L|[L1 L2]])]; [eauto| |].
    - eapply (IHw (core_work o')); [lia|reflexivity|reflexivity|exact H'].
    - apply (IHb b' ltac:(lia) m o' b'); [congruence|reflexivity|exact H']. }
  destruct (ga_parts _ good_0) as (k & x & y & P). eapply (K _ _ 0%nat); [reflexivity|reflexivity|]. exists k, x, y. auto.
Qed.
Lemma rest_stays n o b : has n o b -> core_work o = 0%nat -> exists o' b', has (S n) o' b' /\ core_work o' = 0%nat.
Proof using TOK INV FIT START LOAD FAIR.
  intros H Z. destruct (has_S n o b (good_all _) (proj1 FAIR _) H) as (o' & b' & H' & [[M|[M1 _]]|(-> & _ & _)]); [lia|exists o', b'; split; [exact H'|lia]|exists o, b'; auto].
Qed.
Theorem comes_to_rest : exists n0, forall n, (n0 <= n)%nat -> good_at n /\ in_touch (at_ n) c d /\ all_done (at_ n) c d.
Proof using TOK INV FIT START LOAD FAIR.
  destruct some_rest as (n0 & o0 & b0 & H0 & Z0). exists n0. intros n Le.
  assert (R : exists o b, has n o b /\ core_work o = 0%nat).
  { replace n with (n0 + (n - n0))%nat by lia. induction (n - n0)%nat as [|j (o & b & H & Z)]; [rewrite Nat.add_0_r; eauto|]. rewrite Nat.add_succ_r. eapply rest_stays; eauto. }
  destruct R as (o & b & (k & x & y & P & E & _) & Z). pose proof (good_all n) as G. split; [exact G|]. split; [exact (of_parts _ _ _ _ _ _ _ P)|]. subst o. eapply zero_done; [apply G|exact P|exact Z].
Qed.
Lemma kept_published n : good_at n -> all_published (z_slog (run evs)) -> all_published (z_slog (at_ n)).
Proof using.
  clear. intros G [A1 A2]. destruct (kp_slog _ _ _ _ (ga_kept _ G)) as (o & Eo & Fo). destruct (fine_pub_published _ _ Fo) as [N1 N2]. rewrite Eo. split; intros K; apply in_app_or in K; destruct K; auto.
Qed.
Lemma kept_refused n : good_at n -> nothing_refused c (z_clog (run evs)) -> nothing_refused c (z_clog (at_ n)).
Proof using. clear. intros G A. destruct (kp_clog _ _ _ _ (ga_kept _ G)) as (o & Eo & Fo). rewrite Eo. apply fine_busy_refused; assumption. Qed.
Theorem fair_obtained : (forall t p, In (t, p) (announced evs) -> utf8 t) -> all_published (z_slog (run evs)) -> nothing_refused c (z_clog (run evs)) ->
  exists n0, forall n, (n0 <= n)%nat -> good_at n /\ in_touch (at_ n) c d /\ all_done (at_ n) c d /\
    exists is, StronglySorted N.lt is /\
      (forall i, In i is <-> due d (z_slog (run evs)) i \/
         (first_unread buf (run evs) d <= i /\ exists t p, nth_error (announced evs) (N.to_nat i) = Some (t, p) /\ trie_contains (trie_run (ops_of d (z_slog (run evs)))) t = true)) /\
      Forall2 (fun i q => nth_error (announced evs) (N.to_nat i) = Some q) is (obtained c (z_clog (at_ n))).
Proof using TOK INV FIT START LOAD FAIR.
  intros U Ap Nr. destruct comes_to_rest as (n0 & H). exists n0. intros n Le. destruct (H n Le) as (G & T & Dn). split; [exact G|]. split; [exact T|]. split; [exact Dn|].
  pose proof (ga_fit _ G) as Gf. pose proof (ga_ann _ G) as Ga. pose proof (ga_ph _ G) as Gp. pose proof (kept_published _ G Ap) as Gu. pose proof (kept_refused _ G Nr) as Gr.
  unfold then_goes_on in *. rewrite announced_app in Ga. eapply (obtained_then token ingress initial D max buf min auth co TOK); try eassumption.
  rewrite <- (app_nil_r (announced evs)) in Ga at 2. apply app_inv_head in Ga. exact Ga.
Qed.
End F.
End Z.
