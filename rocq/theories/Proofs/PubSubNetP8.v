(** The joint model of a subscriber and a publisher socket: only what is subscribed; everything at rest. *)
From Coq Require Import ZArith Permutation Sorting.Sorted.
From Verif Require Import Model.Base Model.Map Model.Framed Model.WirePubSub Model.WireAuth Model.Compression Model.Handshake Model.JoinMap Model.Utf8 Model.Trie Model.PubDriver Model.SubDriver Model.Net Model.PubSubNet
  Spec.Wire Spec.Stream Spec.Utf8Spec Spec.CompressSpec Spec.Topics Spec.PubSpec Spec.SubSpec Spec.NetSpec2
  Proofs.BaseP Proofs.MapP Proofs.Utf8P Proofs.SubDriverP9 Proofs.PubSubP Proofs.NetP Proofs.PubSubNetP Proofs.PubSubNetP2 Proofs.PubNetP Proofs.SubNetP Proofs.PubSubNetP3 Proofs.PubSubNetP5 Proofs.PubSubNetP6 Proofs.PubSubNetP7.
From Verif Require Proofs.PubDriverP Proofs.PubDriverP5 Proofs.SubDriverP Proofs.SubDriverP2 Proofs.SubDriverP3 Proofs.SubDriverP4 Proofs.SubDriverP7 Proofs.T_Pub Proofs.T_Sub Proofs.T_Compress Proofs.T_Trie.
Local Open Scope N_scope.

(** * Where subscriptions come from *)
Lemma control_sub m t : msg_to_control m = Some (TSub t) -> exists u, ps_topic m = sub_prefix ++ u /\ t = from_utf8_lossy u.
Proof.
  unfold msg_to_control. destruct (_ =? 0); [|discriminate]. unfold starts_with at 1. destruct (eq_dec _ _) as [E|]; [|destruct (starts_with _ _); discriminate]. intros [= <-].
  exists (skipn (length sub_prefix) (ps_topic m)). split; [|reflexivity]. rewrite <- E at 1. symmetry. apply firstn_skipn.
Qed.
Lemma ctl_sub k u : ctl_topic k = sub_prefix ++ u -> k = SSub u.
Proof. destruct k as [v|v]; cbn [ctl_topic]; intros H; [apply app_inv_head in H; congruence|]. exfalso. cbn in H. discriminate. Qed.

Section S.
Variables (token : option bytes) (ingress initial : N) (D : decompressors).
Lemma sub_called evs s l c m t : sb_run token ingress initial D sb_init evs = (s, l) -> In m (written_on c l) -> msg_to_control m = Some (TSub t) ->
  exists b u, In (ApSub b u) (calls l) /\ t = from_utf8_lossy u.
Proof.
  intros R Hm E. destruct (control_sub _ _ E) as (u & Eu & ->). pose proof (SubDriverP2.run_connI token ingress initial D c _ _ _ R) as CI.
  assert (Hg : In (SSub u) (got c l)).
  { pose proof (SubDriverP2.ci_wire _ _ _ _ CI) as W. unfold SubDriverP2.wireI in W. pose proof (written_wired _ _ _ Hm) as H. rewrite <- SubDriverP2.wired_on in H. destruct (mget c (sb_conns s)).
    - destruct W as (_ & _ & _ & w & P & _). apply (in_map ps_topic) in H. assert (H' : In (ps_topic m) (map ctl_topic (got c (on c l)))) by (eapply Permutation_in; [exact P|]; apply in_or_app; left; exact H).
      apply in_map_iff in H'. destruct H' as (k & Hk & Hi). rewrite Eu in Hk. apply ctl_sub in Hk. subst k. rewrite SubDriverP2.got_on in Hi. exact Hi.
    - rewrite W in H. destruct H. }
  assert (Hg' : In (UGot c (SSub u)) (on c l)).
  { rewrite <- SubDriverP2.got_on in Hg. unfold got in Hg. apply in_flat_map in Hg. destruct Hg as (x & Hx & Hc). destruct x; try contradiction. destruct (eq_dec cid c); [subst|contradiction]. destruct Hc as [->|[]]. exact Hx. }
  destruct (SubDriverP7.got_try _ _ _ _ (SubDriverP2.ci_cmd _ _ _ _ CI) Hg') as [r Ht]. apply SubDriverP2.in_on in Ht; [|cbn; destruct (eq_dec c c); congruence].
  apply (SubDriverP7.run_src token ingress initial D _ _ _ R) in Ht. destruct (SubDriverP3.gi_cmds _ _ _ (SubDriverP4.run_GI token ingress initial D _ _ _ R)) as (tail & Ec & Tl).
  assert (Hc : In (CSub u) (flat_map meaning (calls l) ++ tail)) by (rewrite <- Ec; apply in_or_app; now left).
  apply in_app_or in Hc. destruct Hc as [Hc|Hc].
  - apply in_flat_map in Hc. destruct Hc as (f & Hf & Hc). destruct f as [b v|b v|b [v|]|b [v|]]; cbn in Hc; try contradiction; destruct Hc as [Hc|[]]; try discriminate. injection Hc as ->. eauto.
  - exfalso. destruct Tl as [[-> _]|[_ [->| ->]]]; [destruct Hc|destruct Hc|]. destruct Hc as [Hc|[]]. discriminate.
Qed.
End S.

Lemma ops_means max buf min auth co evs s l d b : pb_run max buf min auth co pb_init evs = (s, l) -> (exists r, l = b ++ r) -> ops_of d b = means (controls_on d b).
Proof.
  intros R [r E]. assert (K : forall c m o, In (QControl c m o) b -> o = msg_to_control m).
  { intros c m o H. eapply T_Pub.C36_operations_are_those_received_pf; [exact R|]. rewrite E. apply in_or_app. left. exact H. }
  clear - K. induction b as [|x b IH]; [reflexivity|]. unfold ops_of, controls_on, means in *. cbn [flat_map]. rewrite flat_map_app, IH by (intros c m o H; eapply K; right; exact H). f_equal.
  destruct x as [| | | | |c m o| | | | | | | | |]; try reflexivity. specialize (K c m o (or_introl eq_refl)). subst o.
  destruct (msg_to_control m) eqn:Em; destruct (eq_dec c d); cbn; rewrite ?Em; reflexivity.
Qed.
Lemma prefix_firstn {A} (p l : list A) : prefix_of p l -> p = firstn (length p) l.
Proof. intros [r ->]. rewrite firstn_app, Nat.sub_diag, firstn_all. cbn. rewrite app_nil_r. reflexivity. Qed.
Lemma prefix_trans {A} (a b c : list A) : prefix_of a b -> prefix_of b c -> prefix_of a c.
Proof. intros [r ->] [q ->]. exists (r ++ q). symmetry. apply app_assoc. Qed.

(** A failed write ends the connection. *)
Lemma failed_ended max buf min auth co evs s l d m : pb_run max buf min auth co pb_init evs = (s, l) -> In (QHanded d m false) l -> In d (sub_ended l).
Proof.
  revert s l. apply (PubDriverP.run_inv max buf min auth co (fun L _ => In (QHanded d m false) L -> In d (sub_ended L))); [intros []|].
  intros L s o s' H P Hi. unfold sub_ended. rewrite flat_map_app, in_app_iff. apply in_app_or in Hi. destruct Hi as [Hi|Hi]; [left; auto|right]. clear H.
  destruct P as [cid x o d' x' G St|cid x G|cid x m0 G Pm|cid x p G _ _ _ _ _ _|k cid au input ok id w rest G Au S|k cid au input ok w rest G Au S|
    k cid au input ok w rest G Au S|k cid G|k cid G Au|k cid G Au|m0 M Le|M|m0 C| |C|]; cbn [pb_open snd app In] in Hi;
    try (repeat (destruct Hi as [Hi|Hi]; [discriminate|]); destruct Hi; fail).
  - destruct St; cbn [In] in Hi; try (destruct Hi as [Hi|[]]; discriminate); destruct Hi.
  - destruct Hi as [Hi|[Hi|[]]]; [|discriminate]. injection Hi as -> _. left. reflexivity.
Qed.

(** * At rest *)
Lemma dir_rest (a b : pse) : pdir a b -> Forall ps_wf (en_sent a) ->
  (en_hs b = en_greet a \/ (en_hs b = [] /\ (en_greet a = [] \/ exists t, en_greet a = x01 :: t))) ->
  pp_todo (en_in b) = [] -> fr_codec (en_fr b) = PSHeader -> fr_buf (en_fr b) = [] -> en_items b = en_sent a.
Proof.
  intros P W H T Co Bu. pose proof (dir_items a b P W H) as [r Er]. destruct P as (D1 & D2 & D3 & D4). rewrite T, app_nil_r, D3, Co, Bu, Er in D1.
  assert (N : encs ps_encode r = [] -> r = []). { intros E. apply (empty_items ps_encode x03 ps_head r []). rewrite app_nil_r. exact E. }
  unfold encs in D1, N. rewrite map_app, concat_app in D1. fold (encs ps_encode) in D1.
  rewrite Er. assert (Z : r = []); [|rewrite Z, app_nil_r; reflexivity]. apply N.
  destruct H as [H|[H [G|(t & G)]]].
  - rewrite H in D1. apply app_inv_head in D1. cbn in D1. rewrite !app_nil_r in D1. rewrite <- (app_nil_r (concat (map ps_encode (en_items b)))) in D1 at 1. apply app_inv_head in D1. symmetry. exact D1.
  - rewrite H, G in D1. cbn in D1. rewrite !app_nil_r in D1. rewrite <- (app_nil_r (concat (map ps_encode (en_items b)))) in D1 at 1. apply app_inv_head in D1. symmetry. exact D1.
  - exfalso. rewrite H, G in D1. cbn in D1. rewrite !app_nil_r in D1. destruct (en_items b) as [|m ms]; [discriminate|]. cbn in D1. discriminate.
Qed.

Section Z.
Variables (token : option bytes) (ingress initial : N) (D : decompressors)
          (max : option N) (buf min : N) (auth : option (bytes -> bool)) (co : option compressor).
Hypothesis TOK : forall t, token = Some t -> blen t < 2 ^ 32.
Notation run := (z_run token ingress initial D max buf min auth co).

Lemma rest_frames evs c d : ps_frames_fit (run evs) -> same_connection (run evs) c d -> arrived (run evs) c ->
  received_on c (z_clog (run evs)) = taken_on d (z_slog (run evs)).
Proof using TOK.
  intros [F1 F2] (l & Hc & Hd) (l' & k & Hc' & Hk & A1 & A2 & A3). assert (l' = l) by congruence. subst l'. pose proof (pub_is_run token ingress initial D max buf min auth co TOK evs) as Rs.
  destruct (z_inv token ingress initial D max buf min auth co TOK evs) as (C & L & S). destruct C as (_ & _ & _ & _ & C5 & _). destruct S as (_ & _ & _ & _ & _ & S6 & _).
  destruct (C5 _ _ _ Hc Hk) as (On & _ & E2). pose proof (L _ _ Hk) as LK. destruct (S6 _ _ _ Hd Hk) as (E3 & _).
  rewrite <- E2, <- E3. apply dir_rest; try assumption.
  - apply LK.
  - rewrite E3. eapply wf_taken; [exact Rs|]. intros m. apply F1.
  - apply (hs_c token auth); assumption.
Qed.

Lemma all_taken evs d : ~ In d (sub_ended (z_slog (run evs))) -> taken_on d (z_slog (run evs)) = sent_to d (z_slog (run evs)).
Proof using TOK.
  intros N. pose proof (pub_is_run token ingress initial D max buf min auth co TOK evs) as Rs.
  assert (K : forall m, ~ In (QHanded d m false) (z_slog (run evs))) by (intros m H; apply N; eapply failed_ended; eassumption).
  clear - K. induction (z_slog (run evs)) as [|x l IH]; [reflexivity|]. unfold taken_on, sent_to in *. cbn [flat_map]. rewrite IH by (intros m H; apply (K m); right; exact H). f_equal.
  destruct x as [| | | | | |c m [|]| | | | | | | |]; try reflexivity. destruct (eq_dec c d) as [->|]; [|reflexivity]. exfalso. apply (K m). left. reflexivity.
Qed.

Lemma only_subscribed evs c t p : ps_frames_fit (run evs) -> to_publisher (run evs) c ->
  (forall t p, In (t, p) (announced evs) -> utf8 t) -> (forall b u, In (ApSub b u) (calls (z_clog (run evs))) -> utf8 u /\ forall us, tokens_of u us -> gt_only_last us) ->
  In (t, p) (obtained c (z_clog (run evs))) ->
  forall tt, tokens_of t tt ->
  exists n s ss b, held (means (firstn n (written_on c (z_clog (run evs))))) s /\ tokens_of s ss /\ matches ss tt /\ In (ApSub b s) (calls (z_clog (run evs))).
Proof using TOK.
  intros Fit Tp U1 U2 Hi tt Ht. pose proof (sub_is_run token ingress initial D max buf min auth co TOK evs) as Rc. pose proof (pub_is_run token ingress initial D max buf min auth co TOK evs) as Rs.
  destruct (T_Sub.C43_in_order_unmodified_pf _ _ _ _ _ _ _ c Rc) as (ms & Sm & Fm).
  assert (Hw : exists w, In w (received_on c (z_clog (run evs))) /\ (utf8 (ps_topic w) -> ps_topic w = t)).
  { unfold obtained in Hi. apply in_map_iff in Hi. destruct Hi as ([[a t'] p'] & E & Hy). injection E as -> ->.
    clear - Fm Hy Sm. assert (X : exists w, In w ms /\ (utf8 (ps_topic w) -> ps_topic w = t)).
    { clear Sm. induction Fm as [|w [[a' t'] p'] ms ys Hq Fm IH]; [destruct Hy|]. destruct Hy as [Hy|Hy].
      - injection Hy as -> -> ->. destruct Hq as (_ & _ & Hu & _). exists w. split; [left; reflexivity|]. intros Uw. symmetry. exact (Hu Uw).
      - destruct (IH Hy) as (w' & Hw & E). exists w'. split; [right; exact Hw|exact E]. }
    destruct X as (w & Hw & E). exists w. split; [eapply subseq_in; eassumption|exact E]. }
  destruct Hw as (w & Hw & Etw). destruct (received_frames token ingress initial D max buf min auth co TOK evs c Fit Tp) as [E|(d & Sc & P)]; [rewrite E in Hw; destruct Hw|].
  assert (Hs : In w (sent_to d (z_slog (run evs)))).
  { apply taken_sent. destruct P as [r ->]. apply in_or_app. left. exact Hw. }
  destruct (T_Pub.C33_in_order_no_duplicates_pf _ _ _ _ _ _ _ _ d Rs) as (is & _ & Du & Fi & _ & _).
  assert (Hd : exists i q, due d (z_slog (run evs)) i /\ message (z_slog (run evs)) i = Some q /\ carries q w).
  { clear - Fi Du Hs. induction Fi as [|i m is ms (q & H1 & H2) Fi IH]; [destruct Hs|]. inversion Du; subst. destruct Hs as [->|Hs]; [eauto|auto]. }
  destruct Hd as (i & q & (before & after & q' & El & Em & Tc) & Em' & (Ca & _)). assert (q' = q) by congruence. subst q'.
  assert (Uq : utf8 (ps_topic w)).
  { rewrite Ca. unfold message in Em. apply nth_error_In in Em. destruct (run_published _ _ _ _ _ _ _ _ _ Rs) as (qs & Sq & Fq). rewrite run_pubs in Sq.
    assert (X : exists y, In y qs /\ stands min co y q). { clear - Fq Em. induction Fq as [|y q' qs ps H Fq IH]; [destruct Em|]. destruct Em as [->|Em]; [exists y; split; [now left|exact H]|]. destruct (IH Em) as (y' & H1 & H2). exists y'. split; [now right|exact H2]. }
    destruct X as ([ty py] & Hy & (Ey & _)). rewrite Ey. cbn [fst]. eapply U1. eapply subseq_in; eassumption. }
  assert (Et : ps_topic w = t) by exact (Etw Uq). rewrite <- Ca, Et in Tc.
  destruct (conn_frames token ingress initial D max buf min auth co TOK evs c d Fit Sc) as [_ Pc].
  rewrite (ops_means _ _ _ _ _ _ _ _ d before Rs) in Tc by (exists (QTook d i :: after); exact El).
  assert (Pb : prefix_of (controls_on d before) (written_on c (z_clog (run evs)))).
  { eapply prefix_trans; [|exact Pc]. rewrite El. exists (controls_on d (QTook d i :: after)). apply flat_map_app. }
  assert (Hctl : forall s, In (TSub s) (means (controls_on d before)) -> exists b, In (ApSub b s) (calls (z_clog (run evs)))).
  { intros s H. unfold means in H. apply in_flat_map in H. destruct H as (m & Hm & Ho). destruct (msg_to_control m) as [o|] eqn:Eo; [|destruct Ho]. destruct Ho as [->|[]].
    assert (Hm' : In m (written_on c (z_clog (run evs)))) by (destruct Pb as [r ->]; apply in_or_app; left; exact Hm).
    destruct (sub_called _ _ _ _ _ _ _ _ _ _ Rc Hm' Eo) as (b & u & Hu & ->). destruct (U2 _ _ Hu) as [Uu _]. rewrite (lossy_id _ Uu). eauto. }
  destruct (T_Trie.C29_no_forward_without_match_pf _ _ _ (fun s ss H K => match Hctl s H with ex_intro _ b Hb => proj2 (U2 b s Hb) ss K end) Ht Tc) as (s & ss & Hh & Hss & Mm).
  assert (Hb : exists b, In (ApSub b s) (calls (z_clog (run evs)))).
  { apply Hctl. clear - Hh. induction Hh; rewrite in_app_iff; [right; left; reflexivity|left; assumption|left; assumption]. }
  destruct Hb as [b Hb]. exists (length (controls_on d before)), s, ss, b. rewrite <- (prefix_firstn _ _ Pb). auto.
Qed.
End Z.
