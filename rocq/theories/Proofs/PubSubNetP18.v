(** The joint model of a subscriber and a publisher socket: there are fair schedules; what is published or asked for at rest, under every fair schedule. *)
From Coq Require Import ZArith Permutation Sorting.Sorted Wf_nat.
From Verif Require Import Model.Base Model.Map Model.Framed Model.WirePubSub Model.WireAuth Model.Compression Model.Handshake Model.JoinMap Model.Backoff Model.Trie Model.Utf8 Model.PubDriver Model.SubDriver Model.Net Model.PubSubNet
  Spec.Wire Spec.Stream Spec.CompressSpec Spec.PubSpec Spec.SubSpec Spec.Utf8Spec Spec.NetSpec2 Spec.NetSpec6 Spec.NetSpec8
  Proofs.BaseP Proofs.MapP Proofs.PubSubP Proofs.NetP Proofs.PubSubNetP Proofs.PubNetP Proofs.SubNetP Proofs.PubSubNetP2 Proofs.PubSubNetP3 Proofs.PubSubNetP5 Proofs.PubSubNetP6 Proofs.PubSubNetP7 Proofs.PubSubNetP8 Proofs.PubSubNetP10 Proofs.PubSubNetP11 Proofs.PubSubNetP12 Proofs.PubSubNetP13 Proofs.PubSubNetP14 Proofs.PubSubNetP15 Proofs.PubSubNetP16 Proofs.PubSubNetP17.
From Verif Require Proofs.ReqRepNetP18.
Local Open Scope N_scope.

Section Z.
Variables (token : option bytes) (ingress initial : N) (D : decompressors)
          (max : option N) (buf min : N) (auth : option (bytes -> bool)) (co : option compressor).
Hypothesis TOK : forall t, token = Some t -> blen t < 2 ^ 32.
Hypothesis INV : forall cm, co = Some cm -> inverse_of D cm.
Notation step := (z_step token ingress initial D max buf min auth co).
Notation run := (z_run token ingress initial D max buf min auth co).

Section F.
Variables (evs : list zev) (c d l : N).
Definition turn (z : zsys) (n : nat) : zev :=
  match (n mod 4)%nat, mget l (z_links z), mget c (sb_conns (z_c z)) with
  | 1%nat, _, Some x => ZEntry (sc_addr x) 0
  | 2%nat, Some k, _ => ZSub c (mkYenv true PnPending [SaOk] 0) (now_io (lk_c k))
  | 3%nat, Some k, _ => ZPub d (mkSenv true true true true 0 PnPending) (now_io (lk_s k))
  | _, _, _ => ZTake
  end.
Fixpoint state (n : nat) : zsys := match n with O => run evs | S n => step (state n) (turn (state n) n) end.
Definition robin (n : nat) : zev := turn (state n) n.
Notation at_ n := (run (then_goes_on evs robin n)).
Lemma state_at n : at_ n = state n.
Proof using. clear TOK INV. induction n as [|n IH]; [unfold then_goes_on; cbn [seq map]; rewrite app_nil_r; reflexivity|]. rewrite follow_S, run_snoc, IH. reflexivity. Qed.
Lemma robin_at n : robin n = turn (at_ n) n.
Proof using. clear TOK INV. rewrite state_at. reflexivity. Qed.
Hypothesis FIT : Forall (input_fits co) evs.
Hypothesis START : exists k x y, parts (run evs) c d l k x y.
Hypothesis LOAD : buffers_suffice ingress buf (run evs) c d.
Notation good_at := (good_at token ingress initial D max buf min auth co evs c d l robin).
Lemma robin_part n : good_at n -> does_part c d (at_ n) (robin n).
Proof using.
  clear. intros G. destruct (ga_parts _ _ _ _ _ _ _ _ _ _ _ _ _ _ _ G) as (k & x & y & [H1 H2 X1 X2 X3 Y K1 K2 K3 K4]).
  rewrite robin_at. unfold turn. rewrite K3, X1. destruct (ReqRepNetP18.mod4 n) as [-> | [-> | [-> | ->]]].
  - exact I.
  - cbn. eauto.
  - cbn. repeat (split; [reflexivity|]). split; [intros a [<-|[]]; reflexivity|]. intros i Hi. exact (now_data _ i Hi).
  - cbn. repeat (split; [reflexivity|]). intros i Hi. exact (now_data _ i Hi).
Qed.
Lemma robin_good n : good_at n.
Proof using TOK INV FIT START LOAD.
  induction n as [|n IH]; [apply good_0; assumption|]. apply good_S; try assumption. apply robin_part, IH.
Qed.
Lemma robin_fair : fair_pubsub c d (fun n => at_ n) robin.
Proof using TOK INV FIT START LOAD.
  assert (M : forall n j, (j < 4)%nat -> ((4 * n + j) mod 4 = j)%nat) by (clear; intros; zify; Z.to_euclidean_division_equations; lia).
  assert (Dl : forall b : pse, some_delivered (now_io b) (en_in b)).
  { intros b. split; [apply now_offered|]. unfold now_io. destruct (pp_todo (en_in b)); [reflexivity|discriminate]. }
  assert (Pt : forall n, exists k x y, parts (at_ n) c d l k x y) by (intros n; exact (ga_parts _ _ _ _ _ _ _ _ _ _ _ _ _ _ _ (robin_good n))).
  split; [intros n; apply robin_part, robin_good|]. split; [|split; [|split]].
  - intros n. exists (4 * n + 0)%nat. split; [lia|]. rewrite robin_at. unfold turn. rewrite M by lia. reflexivity.
  - intros n. exists (4 * n + 1)%nat. split; [lia|]. destruct (Pt (4 * n + 1)%nat) as (k & x & y & [H1 H2 X1 X2 X3 Y K1 K2 K3 K4]). rewrite robin_at. unfold turn. rewrite M, X1 by lia. exact I.
  - intros n. exists (4 * n + 2)%nat. split; [lia|]. destruct (Pt (4 * n + 2)%nat) as (k & x & y & [H1 H2 X1 X2 X3 Y K1 K2 K3 K4]). rewrite robin_at. unfold turn. rewrite M, K3 by lia. cbn [sub_turn y_sends]. split; [discriminate|]. exists l, k. auto.
  - intros n. exists (4 * n + 3)%nat. split; [lia|]. destruct (Pt (4 * n + 3)%nat) as (k & x & y & [H1 H2 X1 X2 X3 Y K1 K2 K3 K4]). rewrite robin_at. unfold turn. rewrite M, K3 by lia. cbn [pub_turn s_ready]. split; [reflexivity|]. exists l, k. auto.
Qed.
End F.

(** ** What is published, or asked for, at rest *)
Lemma rest_sent evs c d : Forall (input_fits co) evs -> in_touch (run evs) c d -> all_done (run evs) c d ->
  match mget c (z_ccids (run evs)) with
  | Some l => match mget l (z_links (run evs)) with Some k => length (en_sent (lk_s k)) - length (en_items (lk_c k)) | None => 0 end
  | None => 0
  end%nat = 0%nat.
Proof using TOK.
  intros F T (_ & _ & _ & (l & k & K1 & K2 & K3 & (K4 & K5 & K6) & _)). destruct (parts_of _ _ _ T) as (l' & k' & x & y & P).
  assert (l' = l) by (pose proof (pt_c _ _ _ _ _ _ _ P); congruence). subst l'. assert (k' = k) by (pose proof (pt_k _ _ _ _ _ _ _ P); congruence). subst k'. rewrite K1, K3.
  destruct (logs token ingress initial D max buf min auth co TOK _ _ _ _ _ _ _ F P) as (E1 & E2 & E3 & E4 & _ & _ & O1 & O2 & LK). destruct (hs_both token auth k LK O1 O2) as [_ Hc].
  rewrite (dir_rest (lk_s k) (lk_c k)); try assumption; [lia|apply LK| |left; exact Hc].
  rewrite E3. eapply wf_taken; [exact (pub_is_run token ingress initial D max buf min auth co TOK evs)|]. intros m. apply (run_fit token ingress initial D max buf min auth co TOK evs F).
Qed.
Lemma batch_load evs c d msgs os : Forall (input_fits co) evs -> in_touch (run evs) c d -> all_done (run evs) c d ->
  pubd (run evs) (run (evs ++ zpubs msgs)) os (length msgs) -> (length msgs <= 1024)%nat -> (length msgs <= N.to_nat ingress)%nat ->
  buffers_suffice ingress buf (run (evs ++ zpubs msgs)) c d.
Proof using TOK.
  intros F T Dn [A1 A2 A3 A4 A5 A6 A7 A8 A9 A10] L1 L2. pose proof (rest_sent evs c d F T Dn) as Rs. destruct Dn as (O & (x & X1 & X2 & X3 & X4) & (y & Y1 & Y2 & Y3) & _).
  assert (E : (still_to_come buf (run (evs ++ zpubs msgs)) c d <= length msgs)%nat).
  { unfold still_to_come. rewrite A1, A2, A3, A7, Rs, Y1, Y2, X1, X2. unfold first_unread. rewrite A7, Y1, Y3. unfold blen. rewrite A8. cbn [length].
    destruct (N.ltb_spec (N.of_nat (length (pb_hist (z_s (run evs)))) + bcast_cap buf) (N.of_nat (length (pb_hist (z_s (run evs))) + length msgs))); lia. }
  unfold buffers_suffice. rewrite A1, O. cbn [length]. lia.
Qed.
Theorem batch_fair evs c d msgs sched : Forall (input_fits co) evs -> in_touch (run evs) c d -> all_done (run evs) c d ->
  (forall t p, In (t, p) (announced evs) -> utf8 t) -> all_published (z_slog (run evs)) -> nothing_refused c (z_clog (run evs)) ->
  blen msgs <= bcast_cap buf -> blen msgs <= 1024 -> blen msgs <= ingress ->
  (forall t p, In (t, p) msgs -> utf8 t /\ blen t < 2 ^ 16 /\ payload_fits co p /\ publish_outgoing min co p <> None) ->
  fair_pubsub c d (fun n => run (then_goes_on (evs ++ zpubs msgs) sched n)) sched ->
  exists n0, forall n, (n0 <= n)%nat -> let z' := run (then_goes_on (evs ++ zpubs msgs) sched n) in in_touch z' c d /\ all_done z' c d /\
    obtained c (z_clog z') = obtained c (z_clog (run evs)) ++ filter (fun q => trie_contains (trie_run (ops_of d (z_slog (run evs)))) (fst q)) msgs.
Proof using TOK INV.
  intros F T Dn U Ap Nr B1 B2 B3 Hm Fr.
  destruct (batch_setup token ingress initial D max buf min auth co evs c d msgs F T U Ap Nr Hm) as (os & Pd & F1 & Ea & T1 & U1 & Ap1 & Nr1).
  destruct (parts_of _ _ _ T1) as (l & k & x & y & P).
  assert (Ld : buffers_suffice ingress buf (run (evs ++ zpubs msgs)) c d) by (eapply batch_load; try eassumption; unfold blen in *; lia).
  destruct (fair_obtained token ingress initial D max buf min auth co TOK INV _ c d l sched F1 (ex_intro _ k (ex_intro _ x (ex_intro _ y P))) Ld Fr U1 Ap1 Nr1) as (n0 & H).
  exists n0. intros n Le. destruct (H n Le) as (_ & G2 & G3 & is & I1 & I2 & I3). split; [exact G2|]. split; [exact G3|].
  eapply (batch_list token ingress initial D max buf min auth co TOK evs c d msgs); eassumption.
Qed.
Lemma command_load evs c d f cmd tops os : Forall (input_fits co) evs -> in_touch (run evs) c d -> all_done (run evs) c d ->
  asked_for token ingress initial D max buf min auth co evs c d f cmd tops os -> buffers_suffice ingress buf (run (evs ++ [ZApi f; ZCommand])) c d.
Proof using TOK.
  intros F T Dn A. pose proof (rest_sent evs c d F T Dn) as Rs. destruct Dn as (O & (x & X1 & X2 & X3 & X4) & (y & Y1 & Y2 & Y3) & _).
  destruct A as [T2 F2 Ea2 Ap2 Nr2 Qt Qq Qo Qi Q2 Q3 Q4 Q5 Q6 Q7 _ _ _]. destruct (Qi _ X1) as (x' & X1' & Xi').
  assert (E : still_to_come buf (run (evs ++ [ZApi f; ZCommand])) c d = 0%nat).
  { unfold still_to_come. rewrite Q2, Q3, Q4, Rs, Y1, Y2, X1', Xi', X2. unfold first_unread. rewrite Q2, Y1, Y3. cbn [length].
    destruct (N.ltb_spec (blen (pb_hist (z_s (run evs))) + bcast_cap buf) (blen (pb_hist (z_s (run evs))))); lia. }
  unfold buffers_suffice. rewrite E, Qo, O. cbn [length]. lia.
Qed.
Theorem command_fair evs c d f sc cmd tops sched : Forall (input_fits co) evs -> in_touch (run evs) c d -> all_done (run evs) c d ->
  (forall t p, In (t, p) (announced evs) -> utf8 t) -> all_published (z_slog (run evs)) -> nothing_refused c (z_clog (run evs)) ->
  sb_cmdq (z_c (run evs)) = [] -> asks initial f sc cmd (z_c (run evs)) tops -> input_fits co (ZApi f) ->
  fair_pubsub c d (fun n => run (then_goes_on (evs ++ [ZApi f; ZCommand]) sched n)) sched ->
  exists n0, forall n, (n0 <= n)%nat -> let evs' := then_goes_on (evs ++ [ZApi f; ZCommand]) sched n in let z' := run evs' in
    Forall (input_fits co) evs' /\ announced evs' = announced evs /\
    in_touch z' c d /\ all_done z' c d /\ all_published (z_slog z') /\ nothing_refused c (z_clog z') /\
    sb_topics (z_c z') = tops /\ sb_cmdq (z_c z') = [] /\ (exists o, z_clog z' = z_clog (run evs) ++ UApi f AOk :: o) /\ obtained c (z_clog z') = obtained c (z_clog (run evs)) /\
    ops_of d (z_slog z') = ops_of d (z_slog (run evs)) ++ [match cmd with SSub t => TSub (from_utf8_lossy t) | SUnsub t => TUnsub (from_utf8_lossy t) end].
Proof using TOK INV.
  intros F T Dn U Ap Nr Cq As Ff Fr. destruct (command_setup token ingress initial D max buf min auth co TOK evs c d f sc cmd tops F T Dn U Ap Nr Cq As Ff) as (os & Af).
  pose proof (command_load evs c d f cmd tops os F T Dn Af) as Ld.
  pose proof Af as [T2 F2 Ea2 Ap2 Nr2 Qt Qq _ _ _ _ _ _ _ _ _ _ _]. set (e2 := evs ++ [ZApi f; ZCommand]) in *.
  assert (U2 : forall t p, In (t, p) (announced e2) -> utf8 t) by (rewrite Ea2; exact U).
  destruct (parts_of _ _ _ T2) as (l & k & x & y & P).
  destruct (fair_obtained token ingress initial D max buf min auth co TOK INV e2 c d l sched F2 (ex_intro _ k (ex_intro _ x (ex_intro _ y P))) Ld Fr U2 Ap2 Nr2) as (n0 & H).
  exists n0. intros n Le. destruct (H n Le) as (G & G2 & G3 & is & I1 & I2 & I3). cbv zeta.
  pose proof (kept_published token ingress initial D max buf min auth co _ _ _ _ _ _ G Ap2) as Gu. pose proof (kept_refused token ingress initial D max buf min auth co _ _ _ _ _ _ G Nr2) as Gr.
  destruct G as [Gf Ga Gp Gl Gk Gh].
  split; [exact Gf|]. split; [rewrite Ga; exact Ea2|]. split; [exact G2|]. split; [exact G3|]. split; [exact Gu|]. split; [exact Gr|].
  split; [rewrite (kp_topics _ _ _ _ Gk); exact Qt|]. split; [rewrite (kp_cmdq _ _ _ _ Gk); exact Qq|].
  destruct (kp_clog _ _ _ _ Gk) as (o' & Eo' & Fo'). unfold then_goes_on in *.
  assert (M2 : Forall (input_fits co) (map sched (seq 0 n))) by (apply Forall_app in Gf; apply Gf).
  exact (command_rest token ingress initial D max buf min auth co TOK evs c d f sc cmd tops os (map sched (seq 0 n)) o' is INV F T Dn U Ap Nr As Af M2 G2 G3 Eo' Fo' I1 I2 I3).
Qed.
End Z.
