(** The joint model of a subscriber and a publisher socket: consequences of the invariant. *)
From Coq Require Import ZArith Permutation Sorting.Sorted.
From Verif Require Import Model.Base Model.Map Model.Framed Model.WirePubSub Model.WireAuth Model.Compression Model.Handshake Model.JoinMap Model.Utf8 Model.Trie Model.PubDriver Model.SubDriver Model.Net Model.PubSubNet
  Spec.Wire Spec.Stream Spec.Utf8Spec Spec.CompressSpec Spec.Topics Spec.PubSpec Spec.SubSpec Spec.NetSpec2
  Proofs.BaseP Proofs.MapP Proofs.FramedP2 Proofs.PubSubP Proofs.NetP Proofs.Utf8P
  Proofs.PubSubNetP Proofs.PubSubNetP2 Proofs.PubNetP Proofs.SubNetP Proofs.PubSubNetP3 Proofs.PubSubNetP5.
From Verif Require Proofs.PubDriverP5 Proofs.SubDriverP2 Proofs.SubDriverP4 Proofs.SubDriverP7 Proofs.T_Pub Proofs.T_Sub Proofs.T_Compress.
Local Open Scope N_scope.

(** * Frames are well-formed *)
Lemma taken_in d m l : In m (taken_on d l) <-> In (QHanded d m true) l.
Proof.
  unfold taken_on. rewrite in_flat_map. split.
  - intros (x & Hx & Hm). destruct x as [| | | | | |c' m' [|]| | | | | | | |]; try contradiction. destruct (eq_dec c' d) as [->|]; [|contradiction]. destruct Hm as [->|[]]. exact Hx.
  - intros H. eexists. split; [exact H|]. cbn. destruct (eq_dec d d); [left; reflexivity|congruence].
Qed.
Lemma taken_sent d m l : In m (taken_on d l) -> In m (sent_to d l).
Proof. rewrite taken_in. intros H. unfold sent_to. apply in_flat_map. eexists. split; [exact H|]. cbn. destruct (eq_dec d d); [left; reflexivity|congruence]. Qed.
Lemma written_in c m l : In m (written_on c l) <-> In (UWire c m true) l.
Proof.
  unfold written_on. rewrite in_flat_map. split.
  - intros (x & Hx & Hm). destruct x as [| | | | | | | | | |c' m' [|]| | | | | | | | | | |]; try contradiction. destruct (eq_dec c' c) as [->|]; [|contradiction]. destruct Hm as [->|[]]. exact Hx.
  - intros H. eexists. split; [exact H|]. cbn. destruct (eq_dec c c); [left; reflexivity|congruence].
Qed.
Lemma written_wired c m l : In m (written_on c l) -> In m (wired c l).
Proof. rewrite written_in. intros H. unfold wired. apply in_flat_map. eexists. split; [exact H|]. cbn. destruct (eq_dec c c); [left; reflexivity|congruence]. Qed.

Lemma wf_taken max buf min auth co evs s l d : pb_run max buf min auth co pb_init evs = (s, l) ->
  (forall m, In (QHanded d m true) l -> blen (ps_payload m) < 2 ^ 32 /\ ps_timestamp m < 2 ^ 64) -> Forall ps_wf (taken_on d l).
Proof.
  intros R Fit. apply Forall_forall. intros m Hm.
  assert (Sq : ps_seq m < 2 ^ 32).
  { destruct (T_Pub.C33_in_order_no_duplicates_pf _ _ _ _ _ _ _ _ d R) as (is & _ & _ & _ & Es & _).
    assert (H : In (ps_seq m) (map ps_seq (sent_to d l))) by (apply in_map, taken_sent, Hm). rewrite Es in H. apply in_map_iff in H. destruct H as (k & <- & _). apply N.mod_lt. discriminate. }
  apply taken_in in Hm. destruct (Fit _ Hm) as [F1 F2].
  pose proof (PubDriverP5.ri_wfs _ _ _ (PubDriverP5.run_rinv _ _ _ _ _ _ _ _ R)) as [W _]. destruct (W _ _ _ Hm) as (now & q & t & b & E).
  unfold pub_into_wire, ps_new in E. destruct (N.ltb_spec (blen t) (2 ^ 16)); [|discriminate]. inversion E; subst. unfold ps_wf. cbn [ps_hdr psh_topic_size psh_topic psh_timestamp psh_seq psh_size ps_payload] in *.
  cbn in F1, F2, Sq. unfold ps_timestamp, ps_seq in *. cbn [ps_hdr psh_timestamp psh_seq] in *. repeat split; auto. unfold as_u32. apply N.mod_small. exact F1.
Qed.
Lemma wf_written token ingress initial D evs s l c : sb_run token ingress initial D sb_init evs = (s, l) ->
  (forall m, In (UWire c m true) l -> ps_timestamp m < 2 ^ 64) -> Forall (fun m => ps_wf m /\ SubDriverP2.made m) (written_on c l).
Proof.
  intros R Fit. apply Forall_forall. intros m Hm. pose proof (SubDriverP2.run_connI token ingress initial D c _ _ _ R) as CI.
  assert (M : SubDriverP2.made m).
  { pose proof (SubDriverP2.ci_wire _ _ _ _ CI) as W. unfold SubDriverP2.wireI in W. pose proof (written_wired _ _ _ Hm) as H. rewrite <- SubDriverP2.wired_on in H. destruct (mget c (sb_conns s)).
    - destruct W as (W & _). rewrite Forall_forall in W. exact (W _ H).
    - rewrite W in H. destruct H. }
  split; [|exact M]. apply written_in in Hm. specialize (Fit _ Hm). destruct M as (now & cc & E).
  assert (K : forall p t, ps_new now 0 (p ++ t) [] x00 = Some m -> ps_wf m).
  { intros p t K. unfold ps_new in K. destruct (N.ltb_spec (blen (p ++ t)) (2 ^ 16)); [|discriminate]. inversion K; subst. unfold ps_wf, ps_timestamp in *. cbn [ps_hdr psh_topic_size psh_topic psh_timestamp psh_seq psh_size ps_payload] in *. repeat split; auto. }
  destruct cc; cbn in E; [eapply (K sub_prefix)|eapply (K unsub_prefix)]; exact E.
Qed.

(** * What the two sides did to a connection *)
Section Z.
Variables (token : option bytes) (ingress initial : N) (D : decompressors)
          (max : option N) (buf min : N) (auth : option (bytes -> bool)) (co : option compressor).
Hypothesis TOK : forall t, token = Some t -> blen t < 2 ^ 32.
Notation run := (z_run token ingress initial D max buf min auth co).

Lemma sub_is_run evs : sb_run token ingress initial D sb_init (z_cevs (run evs)) = (z_c (run evs), z_clog (run evs)).
Proof using TOK. destruct (z_inv token ingress initial D max buf min auth co TOK evs) as (C & _). destruct C as (H & _). exact H. Qed.
Lemma pub_is_run evs : pb_run max buf min auth co pb_init (z_sevs (run evs)) = (z_s (run evs), z_slog (run evs)).
Proof using TOK. destruct (z_inv token ingress initial D max buf min auth co TOK evs) as (_ & _ & S). destruct S as (H & _). exact H. Qed.

Lemma conn_once evs c d d' c' : same_connection (run evs) c d -> (same_connection (run evs) c d' -> d = d') /\ (same_connection (run evs) c' d -> c = c').
Proof using TOK.
  destruct (z_inv token ingress initial D max buf min auth co TOK evs) as ((_ & _ & Ci & _) & _ & (_ & Si & _)).
  intros (l & H1 & H2). split; intros (l' & G1 & G2); [eapply Si; [exact H2|]; congruence|eapply Ci; [exact H1|]; congruence].
Qed.

Lemma conn_frames evs c d : ps_frames_fit (run evs) -> same_connection (run evs) c d ->
  prefix_of (received_on c (z_clog (run evs))) (taken_on d (z_slog (run evs))) /\
  prefix_of (controls_on d (z_slog (run evs))) (written_on c (z_clog (run evs))).
Proof using TOK.
  intros [F1 F2] (l & Hc & Hd). pose proof (sub_is_run evs) as Rc. pose proof (pub_is_run evs) as Rs.
  destruct (z_inv token ingress initial D max buf min auth co TOK evs) as (C & L & S). destruct C as (_ & _ & _ & C4 & C5 & _). destruct S as (_ & _ & _ & _ & _ & S6 & _).
  destruct (C4 _ _ Hc) as (_ & k & Hk). destruct (C5 _ _ _ Hc Hk) as (_ & E1 & E2). pose proof (L _ _ Hk) as LK.
  pose proof (S6 _ _ _ Hd Hk) as S7.
  assert (E3 : en_sent (lk_s k) = taken_on d (z_slog (run evs)) /\ en_items (lk_s k) = controls_on d (z_slog (run evs))) by (destruct S7 as (? & ? & ?); auto).
  destruct E3 as [E3 E4].
  rewrite <- E2, <- E3, <- E4, <- E1. split.
  - eapply items_c; [exact LK|]. rewrite E3. eapply wf_taken; [exact Rs|]. intros m. apply F1.
  - eapply items_s; [exact LK|]. rewrite E1. eapply Forall_impl; [|eapply wf_written; [exact Rc|intros m; apply F2]]. cbn. tauto.
Qed.
Lemma conn_alone evs c : to_publisher (run evs) c -> (forall d, ~ same_connection (run evs) c d) -> received_on c (z_clog (run evs)) = [].
Proof using TOK.
  intros Tp Na. unfold to_publisher in Tp. destruct (mget c (z_ccids (run evs))) as [l|] eqn:Hc; [|congruence].
  destruct (z_inv token ingress initial D max buf min auth co TOK evs) as (C & L & S). destruct C as (_ & _ & _ & C4 & C5 & _). destruct S as (_ & _ & _ & _ & S5 & _).
  destruct (C4 _ _ Hc) as (_ & k & Hk). destruct (C5 _ _ _ Hc Hk) as (_ & E1 & E2). pose proof (L _ _ Hk) as LK.
  assert (Fs : fresh_s k). { eapply S5; [exact Hk|]. intros d Hd. apply (Na d). exists l. auto. }
  rewrite <- E2. pose proof (fresh_fields _ Fs) as (_ & _ & _ & _ & Es & _).
  assert (P : prefix_of (en_items (lk_c k)) []) by (rewrite <- Es; eapply items_c; [exact LK|rewrite Es; constructor]). destruct P as [t P]. symmetry in P. apply app_eq_nil in P. apply P.
Qed.
End Z.
