(** The joint model of a subscriber and a publisher socket: if the inputs fit, so do the frames. *)
From Coq Require Import ZArith Permutation Sorting.Sorted.
From Verif Require Import Model.Base Model.Map Model.Framed Model.WirePubSub Model.WireAuth Model.Compression Model.Handshake Model.JoinMap Model.Backoff Model.Trie Model.PubDriver Model.SubDriver Model.Net Model.PubSubNet
  Spec.Wire Spec.Stream Spec.CompressSpec Spec.PubSpec Spec.SubSpec Spec.NetSpec2 Spec.NetSpec6
  Proofs.BaseP Proofs.MapP Proofs.PubSubNetP Proofs.PubNetP Proofs.SubNetP Proofs.PubSubNetP3 Proofs.PubSubNetP5 Proofs.PubSubNetP6 Proofs.PubSubNetP7.
From Verif Require Proofs.PubDriverP Proofs.PubDriverP2 Proofs.PubDriverP4 Proofs.PubDriverP5 Proofs.SubDriverP Proofs.SubDriverP2 Proofs.SubDriverP3 Proofs.SubDriverP4 Proofs.SubDriverP7 Proofs.T_Pub.
Local Open Scope N_scope.

(** ** The events of the two sides *)
Definition sev_from (ev : zev) (w : pb_event) : Prop := match w with WSession c e => exists e0 i, ev = ZPub c e0 i /\ s_now e = s_now e0 | _ => True end.
Definition cev_from (ev : zev) (w : sb_event) : Prop := match w with YSess c e => exists e0 i, ev = ZSub c e0 i /\ y_now e = y_now e0 | YApi f => ev = ZApi f | _ => True end.
Section Z.
Variables (token : option bytes) (ingress initial : N) (D : decompressors)
          (max : option N) (buf min : N) (auth : option (bytes -> bool)) (co : option compressor).
Notation step := (z_step token ingress initial D max buf min auth co).
Notation run := (z_run token ingress initial D max buf min auth co).
Lemma sub_cevs ev z : z_cevs (z_sub token ingress initial D ev z) = z_cevs z ++ [ev].
Proof. unfold z_sub. destruct (sb_act _ _ _ _ _ _). reflexivity. Qed.
Lemma pub_cevs ev z : z_cevs (z_pub max buf min auth co ev z) = z_cevs z.
Proof. unfold z_pub. destruct (pb_act _ _ _ _ _ _ _). reflexivity. Qed.
Definition both (z z' : zsys) (ev : zev) : Prop :=
  (exists es, z_sevs z' = z_sevs z ++ es /\ Forall (sev_from ev) es) /\ (exists es, z_cevs z' = z_cevs z ++ es /\ Forall (cev_from ev) es).
Lemma both_same z z' ev : z_sevs z' = z_sevs z -> z_cevs z' = z_cevs z -> both z z' ev.
Proof. intros E1 E2. unfold both. rewrite E1, E2. split; exists []; rewrite app_nil_r; auto. Qed.
Lemma both_pub w z0 z ev : z_sevs z0 = z_sevs z -> z_cevs z0 = z_cevs z -> sev_from ev w -> both z (z_pub max buf min auth co w z0) ev.
Proof. intros E1 E2 H. split; [exists [w]; rewrite pub_sevs, E1; auto|exists []; rewrite pub_cevs, E2, app_nil_r; auto]. Qed.
Lemma both_sub w z0 z ev : z_sevs z0 = z_sevs z -> z_cevs z0 = z_cevs z -> cev_from ev w -> both z (z_sub token ingress initial D w z0) ev.
Proof. intros E1 E2 H. split; [exists []; rewrite sub_sevs, E1, app_nil_r; auto|exists [w]; rewrite sub_cevs, E2; auto]. Qed.
Lemma both_eq z z1 z2 ev : both z z1 ev -> z_sevs z2 = z_sevs z1 -> z_cevs z2 = z_cevs z1 -> both z z2 ev.
Proof. intros H E1 E2. unfold both in *. rewrite E1, E2. exact H. Qed.
Lemma step_both z ev : both z (step z ev) ev.
Proof.
  destruct ev as [f| | |a now| |a ok|k r order|c e i|from|k r|k i b|c e i|t p|t p|]; cbn [z_step]; try (apply both_sub; [reflexivity|reflexivity|exact I || reflexivity]); try (apply both_pub; [reflexivity|reflexivity|exact I]).
  - apply both_same; unfold z_connected; destruct (smem _ _); try reflexivity; destruct (mget _ _); reflexivity.
  - unfold z_join. destruct (nth_error _ _) as [a|]; [|apply both_same; reflexivity]. destruct (mget a _) as [[l ok]|]; [|apply both_sub; [reflexivity|reflexivity|exact I]].
    destruct (mget l _) as [lk|]; [|apply both_same; reflexivity]. destruct r; try (apply both_same; reflexivity). destruct (pipe_offers _ _); [|apply both_same; reflexivity].
    pose proof (both_sub (YJoin k (JConn ok input) order) z z (ZJoin k (JConn send_ok input) order) eq_refl eq_refl I) as B.
    destruct (auth_client _ _ _) as [[[| | |] w] rest]; [|eapply both_eq; [exact B| |]; reflexivity..|apply both_same; reflexivity].
    cbv zeta. match goal with |- context [if ?b then _ else _] => destruct b end; (eapply both_eq; [exact B| |]; reflexivity).
  - unfold z_subsess. destruct (mget c _) as [x|]; [|apply both_same; reflexivity]. destruct (sc_alive x); [|apply both_same; reflexivity]. destruct (z_link_of _ _ _) as [[l k]|]; [|apply both_sub; [reflexivity|reflexivity|exists e, i; auto]].
    destruct (pipe_offers _ _); [|apply both_same; reflexivity]. destruct (ps_poll _ _). apply both_sub; [reflexivity|reflexivity|]. exists e, i. auto.
  - unfold z_accept. destruct from as [l|]; [|apply both_pub; [reflexivity|reflexivity|exact I]]. destruct (smem _ _); [|apply both_same; reflexivity]. cbv zeta. eapply both_eq; [apply (both_pub WAccept z z); [reflexivity|reflexivity|exact I]| |]; reflexivity.
  - unfold z_auth. destruct (nth_error _ _) as [cid|]; [|apply both_same; reflexivity]. destruct auth as [a|] eqn:Ea; [|apply both_same; reflexivity]. rewrite <- Ea. destruct (z_link_of _ _ _) as [[l lk]|]; [|apply both_pub; [reflexivity|reflexivity|exact I]].
    destruct (pipe_offers _ _); [|apply both_same; reflexivity]. destruct (auth_server _ _ _) as [[[id| | |] w] rest]; apply both_pub; reflexivity || exact I.
  - unfold z_pubsess. destruct (mget c _) as [x|]; [|apply both_same; reflexivity]. destruct (z_link_of _ _ _) as [[l lk]|]; [|apply both_pub; [reflexivity|reflexivity|exists e, i; auto]].
    destruct (s_wants_next _ _ _ _); [|apply both_pub; [reflexivity|reflexivity|exists e, i; auto]]. destruct (pipe_offers _ _); [|apply both_same; reflexivity]. destruct (ps_poll _ _). apply both_pub; [reflexivity|reflexivity|exists e, i; auto].
Qed.
Definition sfit (w : pb_event) : Prop := match w with WSession _ e => s_now e < 2 ^ 64 | _ => True end.
Definition cfit (w : sb_event) : Prop := match w with YSess _ e => y_now e < 2 ^ 64 | YApi (ApSub _ t) | YApi (ApUnsub _ t) => blen t + 10 < 2 ^ 16 | _ => True end.
Lemma run_events evs : Forall (input_fits co) evs -> Forall sfit (z_sevs (run evs)) /\ Forall cfit (z_cevs (run evs)).
Proof.
  unfold z_run. assert (K : forall evs z, Forall (input_fits co) evs -> Forall sfit (z_sevs z) -> Forall cfit (z_cevs z) -> Forall sfit (z_sevs (fold_left step evs z)) /\ Forall cfit (z_cevs (fold_left step evs z))).
  { clear evs. induction evs as [|ev evs IH]; intros z F H1 H2; cbn [fold_left]; [auto|]. inversion F; subst. destruct (step_both z ev) as [(e1 & E1 & F1) (e2 & E2 & F2)].
    apply IH; [assumption| |].
    - rewrite E1. apply Forall_app. split; [exact H1|]. eapply Forall_impl; [|exact F1]. intros w Hw. destruct w; try exact I. destruct Hw as (e0 & i & -> & Hw). cbn [sfit]. rewrite Hw. assumption.
    - rewrite E2. apply Forall_app. split; [exact H2|]. eapply Forall_impl; [|exact F2]. intros w Hw. destruct w; try exact I.
      + destruct Hw as (e0 & i & -> & Hw). cbn [cfit]. rewrite Hw. assumption.
      + cbn in Hw. subst ev. destruct f; try exact I; assumption. }
  intros F. apply K; [exact F|constructor|constructor].
Qed.
End Z.

(** ** Timestamps: the publisher *)
Section P.
Variables (max : option N) (buf min : N) (auth : option (bytes -> bool)) (co : option compressor).
Notation act := (pb_act max buf min auth co).
Definition pst (s : pb) : Prop := forall d x m, mget d (pb_sess s) = Some x -> sn_pending x = Some m -> ps_timestamp m < 2 ^ 64.
Definition hts (o : list qout) : Prop := forall d m b, In (QHanded d m b) o -> ps_timestamp m < 2 ^ 64.
Lemma hts_app a b : hts a -> hts b -> hts (a ++ b). Proof. intros A B d m x H. apply in_app_or in H. destruct H as [H|H]; [eapply A|eapply B]; exact H. Qed.
Lemma into_wire_ts now q t b m : pub_into_wire now q t b = Some m -> ps_timestamp m = now.
Proof. unfold pub_into_wire, ps_new. destruct (_ <? _); [|discriminate]. intros H; inversion H; subst. reflexivity. Qed.
Lemma pst_set s s' cid x : pst s -> pb_sess s' = mset cid x (pb_sess s) -> (forall m, sn_pending x = Some m -> ps_timestamp m < 2 ^ 64) -> pst s'.
Proof. intros H E Hx d y m. rewrite E, mget_set. destruct (eq_dec d cid); [intros [= <-]; apply Hx|apply H]. Qed.
Lemma pst_del s s' cid : pst s -> pb_sess s' = mdel cid (pb_sess s) -> pst s'.
Proof. intros H E d y m. rewrite E. intros G. destruct (eq_dec d cid) as [->|Ne]; [rewrite mget_del_eq in G; discriminate|rewrite mget_del_ne in G by exact Ne]. eapply H; exact G. Qed.
Lemma act_ts s ev s' o : sfit ev -> pst s -> act s ev = (s', o) -> pst s' /\ hts o.
Proof.
  intros F H. destruct ev as [cid e|k i b|k r| |t p|t p|]; cbn [pb_act].
  - destruct (pb_session buf cid e s) as [[s1 o1] r1] eqn:E. intros [= <- <-]. unfold pb_session in E. destruct (mget cid (pb_sess s)) as [x|] eqn:G; [|inversion E; subst; split; [exact H|intros ? ? ? []]].
    destruct (sn_iter buf cid e (pb_hist s) (pb_closed s) x) as [[[x' dt] oo] r] eqn:It.
    assert (K : (forall m, sn_pending x' = Some m -> ps_timestamp m < 2 ^ 64) /\ hts oo).
    { revert It. unfold sn_iter. cbn [sn_seq sn_pos sn_pending sn_filter sn_flush]. pose proof (fun m => H _ _ m G) as Hx. destruct (s_ready e); [|intros It; inversion It; subst; split; [exact Hx|intros ? ? ? []]].
      destruct (sn_pending x) as [m|] eqn:Pm; [destruct (s_send e); intros It; inversion It; subst; (split; [intros ? K; discriminate K|intros d0 m0 b0 [K|[]]; inversion K; subst; apply Hx; reflexivity])|].
      destruct (bcast_recv _ _ _ _).
      - destruct (nth_error _ _); [|intros It; inversion It; subst; split; [intros ? K; discriminate K|intros ? ? ? []]]. destruct (trie_contains _ _); [destruct (pub_into_wire _ _ _ _) eqn:W|]; intros It; inversion It; subst;
          (split; [intros m0 K; try discriminate K; inversion K; subst; try (apply into_wire_ts in W; rewrite W; exact F)|intros d0 m0 b0 [K|[]]; discriminate K]).
      - intros It; inversion It; subst; split; [intros ? K; discriminate K|intros d0 m0 b0 [K|[]]; discriminate K].
      - destruct (s_next e); intros It; inversion It; subst; (split; [intros ? K; discriminate K|intros d0 m0 b0 K; try (destruct K as [K|[]]; discriminate K); destruct K]).
      - intros It; inversion It; subst; split; [intros ? K; discriminate K|intros d0 m0 b0 []]. }
    destruct K as [K1 K2]. destruct r; inversion E; subst.
    + split; [eapply pst_set; [exact H|reflexivity|exact K1]|exact K2].
    + split; [eapply pst_set; [exact H|reflexivity|exact K1]|exact K2].
    + split; [eapply pst_del; [exact H|reflexivity]|apply hts_app; [exact K2|intros d0 m0 b0 [K|[]]; discriminate K]].
    + split; [eapply pst_del; [exact H|reflexivity]|apply hts_app; [exact K2|intros d0 m0 b0 [K|[]]; discriminate K]].
  - destruct (pb_auth auth k i b s) as [[s1 o1] r1] eqn:E. intros [= <- <-]. unfold pb_auth in E. destruct (nth_error (pb_auths s) k) as [cid|]; [|inversion E; subst; split; [exact H|intros ? ? ? []]].
    destruct auth as [a|]; [|inversion E; subst; split; [exact H|intros ? ? ? []]].
    destruct (auth_server a b i) as [[[id| | |] w] rest]; cbn [pb_open] in E; inversion E; subst;
      (split; [|intros d0 m0 b0 K; cbn [app In] in K; repeat (destruct K as [K|K]; [discriminate K|]); destruct K]); try exact H.
    eapply pst_set; [exact H|reflexivity|]. intros ? K; discriminate K.
  - destruct (pb_conn auth k r s) as [[s1 o1] r1] eqn:E. intros [= <- <-]. unfold pb_conn in E. destruct (nth_error (pb_conns s) k) as [cid|]; [|inversion E; subst; split; [exact H|intros ? ? ? []]].
    destruct r as [[|]|]; [destruct auth| |]; cbn [pb_open] in E; inversion E; subst; (split; [|intros d0 m0 b0 K; cbn [app In] in K; repeat (destruct K as [K|K]; [discriminate K|]); destruct K]); try exact H.
    eapply pst_set; [exact H|reflexivity|]. intros ? K; discriminate K.
  - unfold pb_accept. destruct max as [m|]; [destruct (_ <=? _)|]; intros [= <- <-]; (split; [exact H|intros d0 m0 b0 [K|[]]; discriminate K]).
  - unfold pb_send. destruct (publish_outgoing min co p); [destruct (pb_closed s)|]; intros [= <- <-]; (split; [exact H|intros d0 m0 b0 K; cbn [In] in K; repeat (destruct K as [K|K]; [discriminate K|]); destruct K]).
  - unfold pb_send. destruct (try_publish_outgoing min co p); [destruct (pb_closed s)|]; intros [= <- <-]; (split; [exact H|intros d0 m0 b0 K; cbn [In] in K; repeat (destruct K as [K|K]; [discriminate K|]); destruct K]).
  - destruct (pb_closed s); intros [= <- <-]; (split; [exact H|intros d0 m0 b0 K; cbn [In] in K; repeat (destruct K as [K|K]; [discriminate K|]); destruct K]).
Qed.
Lemma run_ts : forall evs s s' o, Forall sfit evs -> pst s -> pb_run max buf min auth co s evs = (s', o) -> pst s' /\ hts o.
Proof.
  induction evs as [|ev evs IH]; intros s s' o F H; cbn [pb_run]; [intros [= <- <-]; split; [exact H|intros ? ? ? []]|].
  destruct (act s ev) as [s1 o1] eqn:A. destruct (pb_run max buf min auth co s1 evs) as [s2 o2] eqn:R. intros [= <- <-]. inversion F; subst.
  destruct (act_ts _ _ _ _ H2 H A) as [P1 P2]. destruct (IH _ _ _ H3 P1 R) as [Q1 Q2]. split; [exact Q1|apply hts_app; assumption].
Qed.
End P.

(** ** Timestamps: the subscriber *)
Section S.
Variables (token : option bytes) (ingress initial : N) (D : decompressors).
Notation act := (sb_act token ingress initial D).
Definition est (s : sb) : Prop := forall c x m, mget c (sb_conns s) = Some x -> In m (sc_egress x) -> ps_timestamp m < 2 ^ 64.
Definition wts (o : list uout) : Prop := forall c m b, In (UWire c m b) o -> ps_timestamp m < 2 ^ 64.
Definition nogot (o : list uout) : Prop := forall c k, ~ In (UGot c k) o.
Lemma wts_app a b : wts a -> wts b -> wts (a ++ b). Proof. intros A B c m x H. apply in_app_or in H. destruct H as [H|H]; [eapply A|eapply B]; exact H. Qed.
Definition ewt (y : option sconn) : Prop := match y with Some x => forall m, In m (sc_egress x) -> ps_timestamp m < 2 ^ 64 | None => True end.
Lemma incoming_egress cid now m x : sc_egress (fst (ss_incoming cid now m x)) = sc_egress x /\ wts (snd (ss_incoming cid now m x)).
Proof. unfold ss_incoming. destruct (sc_held x); cbn [negb]; [destruct (_ <? _)|]; (split; [reflexivity|intros c0 m0 b0 [K|[]]; discriminate K]). Qed.
Lemma cst_ts cid y o y' : SubDriverP.cst D cid y o y' -> nogot o -> ewt y -> ewt y' /\ wts o.
Proof.
  intros H N E. destruct H; cbn [ewt] in *.
  - split; [intros m []|intros c0 m0 b0 [K|[]]; discriminate K].
  - split; [exact E|intros ? ? ? []].
  - split; [|intros c0 m0 b0 [K|[]]; discriminate K]. cbn. intros m0 Hm. apply E. rewrite H0. apply in_app_or in Hm. destruct Hm as [Hm|[->|[]]]; [right; exact Hm|left; reflexivity].
  - split; [cbn; intros m0 Hm; apply E; rewrite H0; right; exact Hm|]. intros c0 m0 b0 [K|[]]; inversion K; subst. apply E. rewrite H0. left. reflexivity.
  - exfalso. eapply N. left. reflexivity.
  - exfalso. eapply N. left. reflexivity.
  - split; [intros m []|intros c0 m0 b0 [K|[]]; discriminate K].
  - destruct (incoming_egress cid now m x) as [E1 E2]. split; [rewrite E1; exact E|exact E2].
  - split; [exact E|intros c0 m0 b0 [K|[]]; discriminate K].
  - split; [|intros c0 m0 b0 [K|[]]; discriminate K]. unfold sc_try. destruct (sc_alive x); cbn [negb]; [destruct (_ <? _)|]; exact E.
  - split; [exact E|intros c0 m0 b0 [K|[]]; discriminate K].
  - split; [exact E|intros c0 m0 b0 [K|[]]; discriminate K].
  - split; [exact E|intros c0 m0 b0 [K|[]]; discriminate K].
Qed.
Lemma csts_ts cid y o y' : SubDriverP.csts D cid y o y' -> nogot o -> ewt y -> ewt y' /\ wts o.
Proof.
  induction 1 as [y|y o y1 o1 y2 H _ IH]; intros N E; [split; [exact E|intros ? ? ? []]|].
  assert (N1 : nogot o) by (intros c k K; apply (N c k), in_or_app; left; exact K). assert (N2 : nogot o1) by (intros c k K; apply (N c k), in_or_app; right; exact K).
  destruct (cst_ts _ _ _ _ H N1 E) as [A B]. destruct (IH N2 A) as [A' B']. split; [exact A'|apply wts_app; assumption].
Qed.
Lemma eg_loop_ts cid : forall eg ans e o p f, eg_loop cid eg ans = (e, o, p, f) -> (forall m, In m eg -> ps_timestamp m < 2 ^ 64) -> (forall m, In m e -> ps_timestamp m < 2 ^ 64) /\ wts o.
Proof.
  induction eg as [|m eg IH]; intros ans e o p f; cbn [eg_loop]; [intros [= <- <- <- <-] _; split; [intros ? []|intros ? ? ? []]|].
  assert (B : (eg ++ [m], [UBusy cid], false, false) = (e, o, p, f) -> (forall m0, In m0 (m :: eg) -> ps_timestamp m0 < 2 ^ 64) -> (forall m0, In m0 e -> ps_timestamp m0 < 2 ^ 64) /\ wts o).
  { intros [= <- <- <- <-] H. split; [intros m0 Hm; apply H; apply in_app_or in Hm; destruct Hm as [Hm|[->|[]]]; [right; exact Hm|left; reflexivity]|intros c0 m0 b0 [K|[]]; discriminate K]. }
  destruct ans as [|[| |] ans]; try exact B; destruct (eg_loop cid eg ans) as [[[e1 o1] p1] f1] eqn:E; intros [= <- <- <- <-] H;
    (destruct (IH _ _ _ _ _ E (fun m0 Hm => H m0 (or_intror Hm))) as [A1 A2]; split; [exact A1|]; intros c0 m0 b0 [K|K]; [inversion K; subst; apply H; left; reflexivity|eapply A2; exact K]).
Qed.
Lemma iter_ts cid e x x' o r : y_now e < 2 ^ 64 -> (forall m, In m (sc_egress x) -> ps_timestamp m < 2 ^ 64) -> ss_iter cid e x = (x', o, r) -> (forall m, In m (sc_egress x') -> ps_timestamp m < 2 ^ 64) /\ wts o.
Proof.
  intros F H. unfold ss_iter. set (fl := if sc_flush x && y_flush e then false else sc_flush x). cbn [sc_set_egress sc_egress sc_flush sc_cmds sc_held].
  assert (P : forall x' o r, (let '(eg, o0, progress, f) := eg_loop cid (sc_egress x) (y_sends e) in
    let x0 := sc_set_egress (sc_set_egress x (sc_egress x) fl) eg (f || fl) in
    if progress then (x0, o0, SCont) else match sc_cmds x with
      | c :: cs => match cmd_frame (y_now e) c with Some m => (sc_set_cmds (sc_set_egress x0 (eg ++ [m]) (f || fl)) cs, o0 ++ [UGot cid c], SCont) | None => (sc_finish x0, o0 ++ [UGot cid c; UCrash cid], SCrash) end
      | [] => if sc_held x then (x0, o0, SPend) else (sc_finish x0, o0 ++ [UEnd cid], SDone) end) = (x', o, r) ->
      (forall m, In m (sc_egress x') -> ps_timestamp m < 2 ^ 64) /\ wts o).
  { clear x' o r. intros x' o r. destruct (eg_loop cid (sc_egress x) (y_sends e)) as [[[eg o0] pr] f] eqn:E. destruct (eg_loop_ts _ _ _ _ _ _ _ E H) as [A B]. cbv zeta. destruct pr; [intros [= <- <- <-]; auto|].
    destruct (sc_cmds x) as [|c cs].
    - destruct (sc_held x); intros [= <- <- <-]; [auto|]. split; [intros m []|]. apply wts_app; [exact B|intros c0 m0 b0 [K|[]]; discriminate K].
    - destruct (cmd_frame (y_now e) c) as [m|] eqn:Cf; intros [= <- <- <-].
      + split; [|apply wts_app; [exact B|intros c0 m0 b0 [K|[]]; discriminate K]]. cbn. intros m0 Hm. apply in_app_or in Hm. destruct Hm as [Hm|[<-|[]]]; [auto|].
        assert (ps_timestamp m = y_now e) as ->; [|exact F]. destruct c; cbn [cmd_frame] in Cf; unfold ps_new_sub, ps_new_unsub, ps_new in Cf; (destruct (_ <? _) in Cf; [|discriminate]); inversion Cf; reflexivity.
      + split; [intros m []|]. apply wts_app; [exact B|intros c0 m0 b0 [K|[K|[]]]; discriminate K]. }
  destruct (y_next e) as [m| | |].
  - destruct (ss_incoming cid (y_now e) m (sc_set_egress x (sc_egress x) fl)) as [x1 o1] eqn:Ei. intros [= <- <- <-]. pose proof (incoming_egress cid (y_now e) m (sc_set_egress x (sc_egress x) fl)) as [A B]. rewrite Ei in A, B. cbn [fst snd] in A, B. split; [rewrite A; exact H|exact B].
  - intros [= <- <- <-]. split; [exact H|intros c0 m0 b0 [K|[]]; discriminate K].
  - apply P.
  - apply P.
Qed.
Definition plain (o : list uout) : Prop := forall x, In x o -> match x with UGot _ _ | UApi _ _ => False | _ => True end.
Ltac pl := let x := fresh in let K := fresh in intros x K; cbn [app In] in K; repeat (destruct K as [<-|K]; [exact I|]); destruct K.
Lemma plain_app a b : plain a -> plain b -> plain (a ++ b). Proof. intros A B x H. apply in_app_or in H. destruct H as [H|H]; [apply A|apply B]; exact H. Qed.
Lemma plain_cons x a : match x with UGot _ _ | UApi _ _ => False | _ => True end -> plain a -> plain (x :: a). Proof. intros A B y [<-|H]; [exact A|apply B, H]. Qed.
Lemma reset_plain0 a s s' o : sb_reset initial a s = (s', o) -> plain o.
Proof. intros R. unfold sb_reset, sb_release in R. destruct (mget a (sb_pubs s)) as [[c2|]|]; [destruct (mget c2 (sb_conns s))| |]; inversion R; subst; pl. Qed.
Lemma act_plain s ev s' o : match ev with YSess _ _ | YApi _ => False | _ => True end -> act s ev = (s', o) -> plain o.
Proof.
  intros Ne A. destruct ev as [cid e|a now| |k r order|f| |]; cbn [sb_act] in A; try contradiction.
  - revert A. clear. destruct (sb_entry ingress initial D a now s) as [[s1 o1] r] eqn:E. intros [= <- <-]. revert E. unfold sb_entry. destruct (mget a (sb_pubs s)) as [[cid|b]|].
    + destruct (mget cid (sb_conns s)) as [x|]; [|intros [= <- <- <-]; pl]. destruct (sc_in x).
      * destruct (sc_alive x); [intros [= <- <- <-]; pl|]. destruct (sb_reset initial a s) as [s2 o2] eqn:R. intros [= <- <- <-]. eapply reset_plain0; eauto.
      * destruct (try_decompress _ _ _); [|intros [= <- <- <-]; pl]. unfold sb_pass. destruct (sb_dropped _); [|destruct (_ <? _)]; intros [= <- <- <-]; pl.
    + destruct (bo_poll now b) as [b' []]; unfold sb_connect; try (intros [= <- <- <-]; pl).
      destruct (jm_contains a (sb_tasks s)); [intros [= <- <- <-]; pl|]. destruct (jm_spawn a _) as [j st]. destruct st; intros [= <- <- <-]; pl.
    + intros [= <- <- <-]; pl.
  - revert A. clear. destruct (sb_next_command initial s) as [[s1 o1] r] eqn:E. intros [= <- <-]. revert E. unfold sb_next_command. destruct (sb_cmdq s) as [|cm q]; [intros [= <- <- <-]; pl|].
    destruct (sb_command initial cm (sb_set_cmdq s q)) as [s2 o2] eqn:C. intros [= <- <- <-]. apply plain_cons; [exact I|]. revert C.
    assert (T : forall cc l s s' o, sb_tell initial cc l s = (s', o) -> plain o).
    { clear. induction l as [|[a [cid|b]] l IH]; intros s s' o; cbn [sb_tell]; [intros [= <- <-]; pl| |apply IH]. destruct (mget cid (sb_conns s)) as [x|]; [|apply IH].
      destruct (sc_try cc x) as [x' r]. destruct (match r with TClosed => _ | _ => _ end) as [s2 o2] eqn:E2. destruct (sb_tell initial cc l s2) as [s3 o3] eqn:E3. intros [= <- <-]. apply plain_cons; [exact I|]. apply plain_app; [|eapply IH; eauto].
      destruct r; [inversion E2; subst; pl..|eapply reset_plain0; eauto]. }
    unfold sb_command. destruct cm as [t|t|a|a|].
    + destruct (smem t _); [intros [= <- <-]; pl|]. intros C. apply (T _ _ _ _ _ C).
    + destruct (smem t _); [|intros [= <- <-]; pl]. intros C. apply (T _ _ _ _ _ C).
    + destruct (mem a _); [intros [= <- <-]; pl|]. unfold sb_connect. destruct (jm_spawn a _) as [j st]. destruct (sb_reset initial a _) as [s3 o3] eqn:R. intros [= <- <-]. apply plain_app; [destruct st; pl|eapply reset_plain0; eauto].
    + destruct (mget a _) as [st|]; [|intros [= <- <-]; pl]. unfold sb_release. destruct st as [c2|]; [|intros [= <- <-]; pl]. cbn [sb_set_cmdq sb_conns]. destruct (mget c2 (sb_conns s)); intros [= <- <-]; pl.
    + intros [= <- <-]; pl.
  - revert A. clear. destruct (sb_join token k r order s) as [[s1 o1] b] eqn:E. intros [= <- <-]. revert E. unfold sb_join. destruct (nth_error _ _) as [a|]; [|intros [= <- <- <-]; pl].
    assert (Gr : forall cid ts x x' o, sb_greet cid ts x = (x', o) -> plain o).
    { clear. induction ts as [|t ts IH]; intros x x' o; cbn [sb_greet]; [intros [= <- <-]; pl|]. destruct (sc_try _ _) as [x1 r]. destruct (sb_greet cid ts x1) as [x2 o2] eqn:E. intros [= <- <-]. apply plain_cons; [exact I|eapply IH; eauto]. }
    destruct r as [| |ok input]; try (intros [= <- <- <-]; pl). destruct (auth_client _ _ _) as [[[| | |] w] rest]; try (intros [= <- <- <-]; pl).
    destruct (sb_connected a order _) as [s2 o2] eqn:C. intros [= <- <- <-]. revert C. unfold sb_connected.
    assert (O : forall s0 s2 o2, (let cid := sb_next s0 in let (x, o) := sb_greet cid (arrange order (sb_topics s0)) (sc_new a) in
       (mkSb (sb_cmdq s0) (sb_out s0) (sb_dropped s0) (sb_tasks s0) (sb_topics s0) (mset a (PActive cid) (sb_pubs s0)) (mset a cid (sb_stats s0)) (mset cid x (sb_conns s0)) (cid + 1), UOpen cid a :: o)) = (s2, o2) -> plain o2).
    { intros s0 s3 o3. cbv zeta. destruct (sb_greet _ _ _) as [x o] eqn:Eg. intros [= <- <-]. apply plain_cons; [exact I|eapply Gr; eauto]. }
    destruct (mget a _) as [[c2|b]|]; [intros [= <- <-]; pl|apply O|apply O].
  - revert A. clear. unfold sb_take. destruct (sb_out s) as [|[[[? ?] ?] ?] ?]; intros [= <- <-]; pl.
  - revert A. clear. unfold sb_drop. destruct (sb_dropped s); intros [= <- <-]; pl.
Qed.
Lemma act_api s f s' o : act s (YApi f) = (s', o) -> sb_conns s' = sb_conns s /\ forall x, In x o -> exists r, x = UApi f r.
Proof. cbn [sb_act]. unfold sb_call. destruct (sb_dropped s); [intros [= <- <-]; split; [reflexivity|intros ? []]|]. destruct (api_command f); [destruct (_ <? _)|]; intros [= <- <-]; (split; [reflexivity|intros x [<-|[]]; eauto]). Qed.
Lemma act_sts s ev s' o : cfit ev -> SubDriverP.SI s -> est s -> act s ev = (s', o) -> est s' /\ wts o.
Proof.
  intros F HS H A. destruct (SubDriverP.act_step token ingress initial D _ _ _ _ HS A) as [_ P].
  assert (G : plain o -> est s' /\ wts o).
  { intros N. assert (X : forall cid, ewt (mget cid (sb_conns s')) /\ wts (on cid o)).
    { intros cid. eapply csts_ts; [exact (P cid)| |].
      - intros c k K. apply (N (UGot c k)). unfold on in K. apply filter_In in K. apply K.
      - unfold ewt. destruct (mget cid (sb_conns s)) as [x|] eqn:G; [|exact I]. intros m. eapply H. exact G. }
    split.
    - intros c x m G. pose proof (proj1 (X c)) as E. rewrite G in E. apply E.
    - intros c m b K. apply (proj2 (X c) c m b). unfold on. apply filter_In. split; [exact K|]. cbn. destruct (eq_dec c c); [reflexivity|congruence]. }
  destruct ev as [cid e|a now| |k r order|f| |]; try (apply G; eapply act_plain; [|exact A]; exact I).
  - clear G. cbn [sb_act] in A. destruct (sb_session cid e s) as [[s1 o1] r] eqn:E. injection A as <- <-. unfold sb_session in E. destruct (mget cid (sb_conns s)) as [x|] eqn:G; [|inversion E; subst; split; [exact H|intros ? ? ? []]].
    destruct (sc_alive x); [|inversion E; subst; split; [exact H|intros ? ? ? []]]. destruct (ss_iter cid e x) as [[x' o'] r'] eqn:It. inversion E; subst.
    destruct (iter_ts _ _ _ _ _ _ F (fun m => H _ _ m G) It) as [K1 K2]. split; [|exact K2]. intros c y m. cbn [sb_set_conns sb_conns]. rewrite mget_set. destruct (eq_dec c cid); [intros [= <-]; apply K1|apply H].
  - destruct (act_api _ _ _ _ A) as [E1 E2]. split; [unfold est; rewrite E1; exact H|]. intros c m b K. destruct (E2 _ K) as (r & X). discriminate X.
Qed.
Lemma run_sts : forall evs s s' o, Forall cfit evs -> SubDriverP.SI s -> est s -> sb_run token ingress initial D s evs = (s', o) -> est s' /\ wts o.
Proof.
  induction evs as [|ev evs IH]; intros s s' o F HS H; cbn [sb_run]; [intros [= <- <-]; split; [exact H|intros ? ? ? []]|].
  destruct (act s ev) as [s1 o1] eqn:A. destruct (sb_run token ingress initial D s1 evs) as [s2 o2] eqn:R. intros [= <- <-]. inversion F; subst.
  destruct (act_sts _ _ _ _ H2 HS H A) as [P1 P2]. pose proof (proj1 (SubDriverP.act_step token ingress initial D _ _ _ _ HS A)) as HS1. destruct (IH _ _ _ H3 HS1 P1 R) as [Q1 Q2]. split; [exact Q1|apply wts_app; assumption].
Qed.

(** Calls made are calls in the events. *)
Lemma eg_loop_api cid : forall eg ans e o p f, eg_loop cid eg ans = (e, o, p, f) -> forall g r, ~ In (UApi g r) o.
Proof.
  induction eg as [|m eg IH]; intros ans e o p f; cbn [eg_loop]; [intros [= <- <- <- <-] g r []|].
  destruct ans as [|[| |] ans]; try (intros [= <- <- <- <-] g r [K|[]]; discriminate K); destruct (eg_loop cid eg ans) as [[[e1 o1] p1] f1] eqn:E; intros [= <- <- <- <-] g r [K|K]; [discriminate K|eapply IH; eauto|discriminate K|eapply IH; eauto].
Qed.
Lemma sess_api cid e s s' o r : sb_session cid e s = (s', o, r) -> forall g q, ~ In (UApi g q) o.
Proof.
  unfold sb_session. destruct (mget cid (sb_conns s)) as [x|]; [|intros [= <- <- <-] g q []]. destruct (sc_alive x); [|intros [= <- <- <-] g q []].
  destruct (ss_iter cid e x) as [[x' o'] r'] eqn:It. intros [= <- <- <-] g q. revert It. unfold ss_iter. destruct (y_next e) as [m| | |].
  - unfold ss_incoming. destruct (negb _); [|destruct (_ <? _)]; intros [= <- <- <-] [K|[]]; discriminate K.
  - intros [= <- <- <-] [K|[]]; discriminate K.
  - destruct (eg_loop _ _ _) as [[[eg o0] pr] f] eqn:E. pose proof (eg_loop_api _ _ _ _ _ _ _ E g q) as N. destruct pr; [intros [= <- <- <-]; exact N|]. destruct (sc_cmds _); [destruct (sc_held _)|destruct (cmd_frame _ _)]; intros [= <- <- <-]; try exact N; intros K; apply in_app_or in K; destruct K as [K|K]; try (exact (N K)); cbn in K; intuition discriminate.
  - destruct (eg_loop _ _ _) as [[[eg o0] pr] f] eqn:E. pose proof (eg_loop_api _ _ _ _ _ _ _ E g q) as N. destruct pr; [intros [= <- <- <-]; exact N|]. destruct (sc_cmds _); [destruct (sc_held _)|destruct (cmd_frame _ _)]; intros [= <- <- <-]; try exact N; intros K; apply in_app_or in K; destruct K as [K|K]; try (exact (N K)); cbn in K; intuition discriminate.
Qed.
Lemma act_calls s ev s' o f : act s ev = (s', o) -> In f (calls o) -> ev = YApi f.
Proof.
  intros A H. unfold calls in H. apply in_flat_map in H. destruct H as (x & Hx & Hf). destruct x as [f0 r0| | | | | | | | | | | | | | | | | | | | |]; try contradiction. assert (f0 = f) by (destruct r0; cbn in Hf; intuition congruence). subst f0.
  destruct ev as [cid e|a now| |k r order|g| |]; try (exfalso; eapply (act_plain _ _ _ _) in A; [|exact I]; exact (A _ Hx)).
  - exfalso. cbn [sb_act] in A. destruct (sb_session cid e s) as [[s1 o1] r] eqn:E. injection A as <- <-. eapply sess_api; eauto.
  - destruct (act_api _ _ _ _ A) as [_ K]. destruct (K _ Hx) as (r & X). congruence.
Qed.
Lemma run_calls : forall evs s s' o f, sb_run token ingress initial D s evs = (s', o) -> In f (calls o) -> In (YApi f) evs.
Proof.
  induction evs as [|ev evs IH]; intros s s' o f; cbn [sb_run]; [intros [= <- <-] []|]. destruct (act s ev) as [s1 o1] eqn:A. destruct (sb_run token ingress initial D s1 evs) as [s2 o2] eqn:R. intros [= <- <-] H.
  unfold calls in H. rewrite flat_map_app in H. apply in_app_or in H. destruct H as [H|H]; [left; eapply act_calls; eauto|right; eapply IH; eauto].
Qed.
Lemma cmds_fit evs s L c x k now : sb_run token ingress initial D sb_init evs = (s, L) -> Forall cfit evs -> mget c (sb_conns s) = Some x -> sc_alive x = true -> In k (sc_cmds x) -> cmd_frame now k <> None.
Proof.
  intros R F G Al H. pose proof (SubDriverP2.ci_cmd _ _ _ _ (SubDriverP2.run_connI token ingress initial D c _ _ _ R)) as C. rewrite G in C. destruct C as (C & _). specialize (C Al).
  assert (X : In k (enqueued c (on c L))) by (rewrite C; apply in_or_app; right; exact H).
  assert (T : exists r, In (UTry c k r) L).
  { unfold enqueued in X. apply in_flat_map in X. destruct X as (z & Hz & Hc). destruct z; try contradiction. destruct r; try contradiction. destruct (eq_dec cid c); [subst|contradiction]. destruct Hc as [->|[]]. unfold on in Hz. apply filter_In in Hz. eexists. apply Hz. }
  destruct T as [r T]. apply (SubDriverP7.run_src token ingress initial D _ _ _ R) in T. destruct (SubDriverP3.gi_cmds _ _ _ (SubDriverP4.run_GI token ingress initial D _ _ _ R)) as (tail & Ec & Tl).
  assert (Hc : In (SubDriverP7.cmd_of k) (flat_map meaning (calls L) ++ tail)) by (rewrite <- Ec; apply in_or_app; now left).
  assert (Hf : exists f, In f (calls L) /\ In (SubDriverP7.cmd_of k) (meaning f)).
  { apply in_app_or in Hc. destruct Hc as [Hc|Hc]; [apply in_flat_map in Hc; exact Hc|]. exfalso. destruct Tl as [[-> _]|[_ [->| ->]]]; [destruct Hc|destruct Hc|]. destruct Hc as [Hc|[]]. destruct k; discriminate. }
  destruct Hf as (f & Hf & Hm). apply (run_calls _ _ _ _ _ R) in Hf. rewrite Forall_forall in F. specialize (F _ Hf). cbn [cfit] in F.
  assert (B : blen (ctl_topic k) < 2 ^ 16).
  { destruct k as [u|u]; destruct f as [b v|b v|b [v|]|b [v|]]; cbn in Hm; try contradiction; destruct Hm as [Hm|[]]; try discriminate; injection Hm as ->; cbn [ctl_topic]; unfold blen in *; rewrite app_length, Nat2N.inj_add.
    - change (N.of_nat (length sub_prefix)) with 8. lia.
    - change (N.of_nat (length unsub_prefix)) with 10. lia. }
  destruct k as [u|u]; cbn [cmd_frame ctl_topic] in *; unfold ps_new_sub, ps_new_unsub, ps_new; apply N.ltb_lt in B; rewrite B; discriminate.
Qed.
End S.

Section F.
Variables (token : option bytes) (ingress initial : N) (D : decompressors)
          (max : option N) (buf min : N) (auth : option (bytes -> bool)) (co : option compressor).
Hypothesis TOK : forall t, token = Some t -> blen t < 2 ^ 32.
Notation run := (z_run token ingress initial D max buf min auth co).
Lemma stands_fit q m : payload_fits co (snd q) -> stands min co q m -> blen (om_payload (pm_body m)) < 2 ^ 32.
Proof using.
  clear TOK. intros [F1 F2] [_ H]. unfold publish_outgoing, try_publish_outgoing, om_compress in H.
  assert (X : forall cm o, co = Some cm -> match cmp_fun cm (om_payload (om_new (snd q))) with Some z => Some {| om_ctype := cmp_type cm; om_payload := z |} | None => None end = Some o -> blen (om_payload o) < 2 ^ 32).
  { intros cm o E K. cbn [om_payload om_new] in K. destruct (cmp_fun cm (snd q)) as [r|] eqn:Er; [|discriminate]. inversion K; subst. cbn. eapply F2; eauto. }
  destruct H as [H|H]; try destruct (min <? blen (snd q)); destruct co as [cm|] eqn:Ec; try (eapply X; [reflexivity|exact H]); inversion H; cbn; exact F1.
Qed.
Lemma announced_fit evs t p : Forall (input_fits co) evs -> In (t, p) (announced evs) -> blen t < 2 ^ 16 /\ payload_fits co p.
Proof using.
  clear TOK. intros F H. unfold announced in H. apply in_flat_map in H. destruct H as (ev & He & Hp). rewrite Forall_forall in F. specialize (F _ He).
  destruct ev; try contradiction; destruct Hp as [Hp|[]]; inversion Hp; subst; exact F.
Qed.
Lemma published_fit evs m : Forall (input_fits co) evs -> In m (published (z_slog (run evs))) -> blen (pm_topic m) < 2 ^ 16 /\ blen (om_payload (pm_body m)) < 2 ^ 32.
Proof using TOK.
  intros F H. pose proof (pub_is_run token ingress initial D max buf min auth co TOK evs) as Rs. destruct (run_published _ _ _ _ _ _ _ _ _ Rs) as (qs & Sq & Fq). rewrite run_pubs in Sq.
  assert (X : exists q, In q qs /\ stands min co q m). { clear - Fq H. induction Fq as [|y q' qs ps K Fq IH]; [destruct H|]. destruct H as [->|H]; [exists y; split; [now left|exact K]|]. destruct (IH H) as (y' & H1 & H2). exists y'. split; [now right|exact H2]. }
  destruct X as ([t p] & Hq & St). apply (subseq_in _ _ _ Sq) in Hq. destruct (announced_fit _ _ _ F Hq) as [F1 F2]. split; [destruct St as [-> _]; exact F1|exact (stands_fit (t, p) m F2 St)].
Qed.
Lemma run_fit evs : Forall (input_fits co) evs -> ps_frames_fit (run evs).
Proof using TOK.
  intros F. destruct (run_events token ingress initial D max buf min auth co evs F) as [Fs Fc].
  pose proof (sub_is_run token ingress initial D max buf min auth co TOK evs) as Rc. pose proof (pub_is_run token ingress initial D max buf min auth co TOK evs) as Rs. split.
  - intros d m Hm. split.
    + destruct (T_Pub.C33_in_order_no_duplicates_pf _ _ _ _ _ _ _ _ d Rs) as (is & _ & _ & Fi & _ & _). assert (Hs : In m (sent_to d (z_slog (run evs)))) by (apply taken_sent, taken_in; exact Hm).
      assert (X : exists q, In q (published (z_slog (run evs))) /\ carries q m).
      { clear - Fi Hs. induction Fi as [|i m' is ms (q & H1 & H2) Fi IH]; [destruct Hs|]. destruct Hs as [->|Hs]; [|auto]. exists q. split; [|exact H2]. unfold message in H1. eapply nth_error_In; exact H1. }
      destruct X as (q & Hq & (_ & C2 & C3)). destruct (published_fit _ _ F Hq) as [_ P]. congruence.
    + assert (P0 : pst pb_init) by (intros d0 x0 m0 G0; discriminate G0). exact (proj2 (run_ts max buf min auth co _ _ _ _ Fs P0 Rs) _ _ _ Hm).
  - intros c m Hm. assert (P0 : est sb_init) by (intros d0 x0 m0 G0; discriminate G0). exact (proj2 (run_sts token ingress initial D _ _ _ _ Fc SubDriverP.SI_init P0 Rc) _ _ _ Hm).
Qed.
Lemma hist_fit evs p : Forall (input_fits co) evs -> In p (pb_hist (z_s (run evs))) -> blen (pm_topic p) < 2 ^ 16.
Proof using TOK.
  intros F H. pose proof (pub_is_run token ingress initial D max buf min auth co TOK evs) as Rs.
  destruct (PubDriverP4.run_tinv _ _ _ _ _ _ _ _ Rs) as [_ T]. rewrite (PubDriverP2.ti_hist _ _ _ T) in H. eapply published_fit; eauto.
Qed.
End F.
