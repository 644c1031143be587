(** C84: slow, flooding and misbehaving peers and the others. *)
From Coq Require Import List NArith.
From Verif Require Import Model.Base Model.Map Model.Stats Model.Backoff Model.Framed Model.WireReqRep Model.WirePubSub Model.WireAuth Model.Compression Model.Trie Model.Handshake Model.ReqDriver Model.RepDriver Model.PubDriver Model.JoinMap Model.SubDriver
  Spec.Wire Spec.Stream Spec.ReqSpec Spec.RepSpec Spec.PubSpec Spec.SubSpec Spec.IsoSpec.
Import ListNotations.
Open Scope N_scope.
(*HEADEND*)
From Coq Require Import ZArith ZifyBool ZifyNat ZifyN Bool.
From Verif Require Import Proofs.BaseP Proofs.MapP Proofs.RepDriverP.
Local Open Scope N_scope.

Definition sim (d : N) (s1 s2 : pb) : Prop :=
  pb_conns s1 = pb_conns s2 /\ pb_auths s1 = pb_auths s2 /\ pb_hist s1 = pb_hist s2 /\ pb_closed s1 = pb_closed s2 /\ pb_next_cid s1 = pb_next_cid s2 /\
  (forall c, c <> d -> mget c (pb_sess s1) = mget c (pb_sess s2)).

Lemma seen_app d a b : seen_by_others d (a ++ b) = seen_by_others d a ++ seen_by_others d b. Proof. apply filter_app. Qed.
Lemma iter_conn buf cid e hist cl x x' n o r : sn_iter buf cid e hist cl x = (x', n, o, r) -> forall y, In y o -> q_conn y = Some cid.
Proof.
  unfold sn_iter. destruct (s_ready e); [|intros H; inversion H; subst; intros ? []]. cbn [sn_pending sn_pos sn_seq sn_filter sn_flush]. destruct (sn_pending x).
  - destruct (s_send e); intros H; inversion H; subst; intros y [<-|[]]; reflexivity.
  - destruct (bcast_recv _ _ _ _); [destruct (nth_error _ _); [destruct (trie_contains _ _); [destruct (pub_into_wire _ _ _ _)|]|]| | |]; try (destruct (s_next e)); intros H; inversion H; subst; intros y Hy;
      (destruct Hy as [<-|[]] || destruct Hy); reflexivity.
Qed.
Lemma seen_none d o : (forall y, In y o -> q_conn y = Some d) -> seen_by_others d o = [].
Proof. induction o as [|x o IH]; intros H; [reflexivity|]. unfold seen_by_others. cbn [filter]. rewrite (H x (or_introl eq_refl)), N.eqb_refl. cbn. apply IH. intros y Hy. apply H. now right. Qed.

Section P.
Variables (max : option N) (buf min : N) (auth : option (bytes -> bool)) (co : option compressor).
Notation act := (pb_act max buf min auth co).
Notation run := (pb_run max buf min auth co).

Lemma own_step d s e s' o s2 : act s (WSession d e) = (s', o) -> sim d s s2 -> sim d s' s2 /\ seen_by_others d o = [] /\ ~ In QRefused o.
Proof.
  intros A (S1 & S2 & S3 & S4 & S5 & S6). cbn [pb_act] in A. unfold pb_session in A. destruct (mget d (pb_sess s)) as [x|] eqn:G; [|inversion A; subst; repeat split; auto].
  destruct (sn_iter buf d e (pb_hist s) (pb_closed s) x) as [[[x' n] o1] r] eqn:It. pose proof (iter_conn _ _ _ _ _ _ _ _ _ _ It) as Hc.
  assert (Z : forall o', (forall y, In y o' -> In y o1 \/ y = QGone d \/ y = QCrashed d) -> seen_by_others d o' = [] /\ ~ In QRefused o').
  { intros o' H. split.
    - apply seen_none. intros y Hy. destruct (H y Hy) as [K|[->| ->]]; [apply Hc, K|reflexivity..].
    - intros K. destruct (H _ K) as [Q|[Q|Q]]; [|discriminate..]. apply Hc in Q. discriminate. }
  destruct r; inversion A; subst; (split; [unfold sim; cbn [pb_conns pb_auths pb_hist pb_closed pb_next_cid pb_sess pb_decr pb_with_active]; repeat split; auto; intros c Hn; rewrite ?mget_set_ne, ?mget_del_ne by congruence; auto|apply Z; intros y Hy; rewrite ?in_app_iff in Hy; cbn [In] in Hy; intuition]).
Qed.

Lemma both_step d s1 s2 ev s1' o1 s2' o2 : match ev with WSession c _ => c <> d | _ => True end -> sim d s1 s2 -> act s1 ev = (s1', o1) -> act s2 ev = (s2', o2) ->
  ~ In QRefused o1 -> ~ In QRefused o2 -> sim d s1' s2' /\ o1 = o2.
Proof.
  intros Ne (S1 & S2 & S3 & S4 & S5 & S6) A1 A2 R1 R2. unfold sim. destruct ev as [c e|k i b|k r| |t p|t p|]; cbn [pb_act] in *.
  - unfold pb_session in *. rewrite <- (S6 c Ne), <- S3, <- S4 in A2. destruct (mget c (pb_sess s1)) as [x|]; [|inversion A1; inversion A2; subst; repeat split; auto].
    destruct (sn_iter buf c e (pb_hist s1) (pb_closed s1) x) as [[[x' n] oo] r].
    destruct r; inversion A1; inversion A2; subst; cbn [pb_conns pb_auths pb_hist pb_closed pb_next_cid pb_sess pb_decr pb_with_active]; (split; [|reflexivity]); (split; [exact S1|]); (split; [exact S2|]); (split; [reflexivity|]); (split; [reflexivity|]); (split; [exact S5|]);
      intros c0 Hn; destruct (N.eq_dec c0 c) as [->|Hc]; rewrite ?mget_set_eq, ?mget_del_eq, ?mget_set_ne, ?mget_del_ne by congruence; auto.
  - unfold pb_auth in *. rewrite <- S2, <- S1, <- S3, <- S4, <- S5 in A2. destruct (nth_error (pb_auths s1) k) as [c|]; [|inversion A1; inversion A2; subst; repeat split; auto].
    destruct auth as [au|]; [|inversion A1; inversion A2; subst; repeat split; auto]. destruct (auth_server au b i) as [[[id| | |] w] rest]; cbn in A1, A2; inversion A1; inversion A2; subst; cbn [pb_conns pb_auths pb_hist pb_closed pb_next_cid pb_sess pb_decr pb_with_active];
      (split; [|reflexivity]); repeat split; auto.
    intros c0 Hn. rewrite !mget_set. repeat match goal with |- context [eq_dec ?u ?v] => destruct (eq_dec u v) end; auto.
  - unfold pb_conn in *. rewrite <- S2, <- S1, <- S3, <- S4, <- S5 in A2. destruct (nth_error (pb_conns s1) k) as [c|]; [|inversion A1; inversion A2; subst; repeat split; auto].
    destruct r as [[|]|]; [destruct auth|..]; cbn in A1, A2; inversion A1; inversion A2; subst; cbn [pb_conns pb_auths pb_hist pb_closed pb_next_cid pb_sess pb_decr pb_with_active];
      (split; [|reflexivity]); repeat split; auto.
    intros c0 Hn. rewrite !mget_set. repeat match goal with |- context [eq_dec ?u ?v] => destruct (eq_dec u v) end; auto.
  - unfold pb_accept in *. rewrite <- S5, <- S1, <- S2, <- S3, <- S4 in A2. destruct (match max with Some m => m <=? pb_active s1 | None => false end); [inversion A1; subst; destruct R1; now left|].
    destruct (match max with Some m => m <=? pb_active s2 | None => false end); [inversion A2; subst; destruct R2; now left|].
    inversion A1; inversion A2; subst. cbn. repeat split; auto.
  - unfold pb_send in *. rewrite <- S4, <- S3, <- S1, <- S2, <- S5 in A2. destruct (publish_outgoing min co p); [destruct (pb_closed s1) eqn:Cl|]; inversion A1; inversion A2; subst; cbn [pb_conns pb_auths pb_hist pb_closed pb_next_cid pb_sess]; repeat split; auto; congruence.
  - unfold pb_send in *. rewrite <- S4, <- S3, <- S1, <- S2, <- S5 in A2. destruct (try_publish_outgoing min co p); [destruct (pb_closed s1) eqn:Cl|]; inversion A1; inversion A2; subst; cbn [pb_conns pb_auths pb_hist pb_closed pb_next_cid pb_sess]; repeat split; auto; congruence.
  - rewrite <- S4 in A2. destruct (pb_closed s1) eqn:Cl; inversion A1; inversion A2; subst; cbn [pb_conns pb_auths pb_hist pb_closed pb_next_cid pb_sess]; repeat split; auto; congruence.
Qed.

Lemma apart_runs d : forall n evs1 evs2 s1 s2 s1' s2' L1 L2, (length evs1 + length evs2 <= n)%nat -> apart_from d evs1 = apart_from d evs2 -> sim d s1 s2 ->
  run s1 evs1 = (s1', L1) -> run s2 evs2 = (s2', L2) -> ~ In QRefused L1 -> ~ In QRefused L2 ->
  seen_by_others d L1 = seen_by_others d L2 /\ sim d s1' s2'.
Proof.
  induction n as [|n IH]; intros evs1 evs2 s1 s2 s1' s2' L1 L2 Ln Ap Si R1 R2 Q1 Q2.
  { destruct evs1, evs2; cbn in Ln; try lia. inversion R1; inversion R2; subst. auto. }
  assert (Own : forall ev : pb_event, (exists e, ev = WSession d e) \/ match ev with WSession c _ => negb (c =? d) | _ => true end = true).
  { intros [c e|k i b|k r| |t p|t p|]; auto. destruct (N.eqb_spec c d); [subst; left; eauto|right; reflexivity]. }
  destruct evs1 as [|ev1 evs1].
  - destruct evs2 as [|ev2 evs2]; [inversion R1; inversion R2; subst; auto|]. cbn [pb_run] in R2.
    destruct (act s2 ev2) as [s3 o3] eqn:A. destruct (run s3 evs2) as [s4 o4] eqn:R. inversion R2; subst. unfold apart_from in Ap. cbn [filter] in Ap.
    destruct (Own ev2) as [(e & ->)|K]; [|rewrite K in Ap; discriminate]. rewrite N.eqb_refl in Ap. cbn [negb] in Ap.
    assert (Si' : sim d s2 s1) by (destruct Si as (? & ? & ? & ? & ? & H6); repeat split; auto; intros; symmetry; auto).
    destruct (own_step _ _ _ _ _ _ A Si') as (Si2 & E & Nr). rewrite seen_app, E.
    eapply (IH [] evs2); [cbn in *; lia|exact Ap| |exact R1|exact R|exact Q1|intros H; apply Q2, in_or_app; auto].
    destruct Si2 as (? & ? & ? & ? & ? & H6); repeat split; auto; intros; symmetry; auto.
  - cbn [pb_run] in R1. destruct (act s1 ev1) as [s3 o3] eqn:A. destruct (run s3 evs1) as [s4 o4] eqn:R. inversion R1; subst.
    unfold apart_from in Ap. cbn [filter] in Ap. destruct (Own ev1) as [(e & ->)|K].
    + rewrite N.eqb_refl in Ap. cbn [negb] in Ap. destruct (own_step _ _ _ _ _ _ A Si) as (Si2 & E & Nr). rewrite seen_app, E.
      eapply (IH evs1 evs2); [|exact Ap|exact Si2|exact R|exact R2| |exact Q2]; [cbn in *; lia|intros H; apply Q1, in_or_app; auto].
    + rewrite K in Ap. destruct evs2 as [|ev2 evs2]; [discriminate|]. cbn [pb_run] in R2. destruct (act s2 ev2) as [s5 o5] eqn:A5. destruct (run s5 evs2) as [s6 o6] eqn:R6. inversion R2; subst.
      cbn [filter] in Ap. destruct (Own ev2) as [(e & ->)|K2].
      * rewrite N.eqb_refl in Ap. cbn [negb] in Ap. assert (Si' : sim d s2 s1) by (destruct Si as (? & ? & ? & ? & ? & H6); repeat split; auto; intros; symmetry; auto).
        destruct (own_step _ _ _ _ _ _ A5 Si') as (Si2 & E & Nr). rewrite (seen_app d o5 o6), E.
        eapply (IH (ev1 :: evs1) evs2); [| | |cbn [pb_run]; rewrite A, R; reflexivity|exact R6|exact Q1|intros H; apply Q2, in_or_app; auto].
        -- cbn in *; lia.
        -- unfold apart_from. cbn [filter]. rewrite K. exact Ap.
        -- destruct Si2 as (? & ? & ? & ? & ? & H6); repeat split; auto; intros; symmetry; auto.
      * rewrite K2 in Ap. inversion Ap; subst ev2. destruct (both_step d s1 s2 ev1 s3 o3 s5 o5) as [Si2 Eo]; auto.
        { destruct ev1; auto. intros ->. rewrite N.eqb_refl in K. discriminate. }
        { intros H; apply Q1, in_or_app; auto. } { intros H; apply Q2, in_or_app; auto. }
        subst o5. rewrite !seen_app. destruct (IH evs1 evs2 s3 s5 s1' s2' o4 o6) as [E S]; auto.
        { cbn in Ln; lia. } { intros H; apply Q1, in_or_app; auto. } { intros H; apply Q2, in_or_app; auto. }
        rewrite E. auto.
Qed.
End P.

(*@prop C84 (publisher): however differently the subscriber on connection [d] behaves in two histories - it reads nothing, it floods the
    publisher with control messages, it disconnects, its session crashes -, everything observed by the application and by all the
    other connections is the same: the same messages at the same turns.  (The exception is `max_clients`: a connection that
    ended makes room.  No connection may be refused in either history.) *)
Lemma C84_publisher_sessions_independent_pf :
  forall max buf min auth co d evs1 evs2 s1 s2 L1 L2,
  apart_from d evs1 = apart_from d evs2 ->
  pb_run max buf min auth co pb_init evs1 = (s1, L1) -> pb_run max buf min auth co pb_init evs2 = (s2, L2) ->
  ~ In QRefused L1 -> ~ In QRefused L2 ->
  seen_by_others d L1 = seen_by_others d L2 /\ forall c, c <> d -> sent_to c L1 = sent_to c L2.
Proof.
  intros max buf min auth co d evs1 evs2 s1 s2 L1 L2 Ap R1 R2 Q1 Q2.
  destruct (apart_runs max buf min auth co d _ evs1 evs2 pb_init pb_init s1 s2 L1 L2 (le_n _) Ap) as [E _]; auto; [repeat split; auto|].
  split; [exact E|]. intros c Hc.
  assert (K : forall L, sent_to c L = sent_to c (seen_by_others d L)).
  { unfold sent_to, seen_by_others. induction L as [|x L IH]; [reflexivity|]. cbn [filter flat_map].
    destruct (match q_conn x with Some c0 => negb (c0 =? d) | None => true end) eqn:B; [cbn [flat_map]; rewrite IH; reflexivity|]. rewrite <- IH.
    destruct x; cbn in B; try discriminate; try reflexivity. cbn. apply negb_false_iff, N.eqb_eq in B. subst.
    repeat match goal with |- context [eq_dec ?u ?v] => destruct (eq_dec u v) end; try congruence; destruct ok; try reflexivity; congruence. }
  rewrite (K L1), (K L2), E. reflexivity.
Qed.

(*@example The subscriber on connection 1 reads nothing in the first history; in the second it subscribes, gets a message and leaves. *)
Lemma C84_publisher_example_pf :
  let pre := [WAccept; WAccept; WConn 0 (Some true); WConn 0 (Some true); WSession 0 (px_env (px_sub [x61])); WSession 0 (px_env PnPending)] in
  let post := [WTryPublish [x61] [x01]; WSession 0 (px_env PnPending); WSession 0 (px_env PnPending); WSession 0 (px_env PnPending)] in
  let evs1 := pre ++ post in
  let evs2 := pre ++ [WSession 1 (px_env (px_sub [x61]))] ++ post ++ [WSession 1 (px_env PnPending); WSession 1 (px_env PnPending); WSession 1 (px_env PnEof)] in
  let r1 := pb_run (Some 2) 4 100 None None pb_init evs1 in let r2 := pb_run (Some 2) 4 100 None None pb_init evs2 in
  apart_from 1 evs1 = apart_from 1 evs2 /\ length (sent_to 0 (snd r1)) = 1%nat /\ sent_to 1 (snd r1) = [] /\ length (sent_to 1 (snd r2)) = 1%nat /\
  existsb (fun x => match x with QRefused => true | _ => false end) (snd r1 ++ snd r2) = false /\ sub_ended (snd r2) = [1].
Proof. cbv zeta. repeat match goal with |- _ /\ _ => split end; vm_compute; reflexivity. Qed.

(** One client whose requests fill the queue. *)
Definition fx_msg : rr_msg := rr_new 4 x00 [x42].
Definition fx_env : penv := mkPenv true true true (Some 0) (NxMsg fx_msg).
Definition filling (k : N) (s : rp) : Prop :=
  (exists p, mget 7 (rp_peers s) = Some p /\ pr_open p = true /\ pr_egress p = [] /\ forall x, In x (pr_pending p) -> fst x < k /\ mget (fst x) (rp_os s) = Some OsWait) /\
  mget 8 (rp_peers s) = Some (mkPeer 1 [] [] false true) /\ blen (rp_chan s) = k /\ rp_next_rid s = k /\ rp_dropped s = false.
Lemma fill_step D k s : filling k s -> k < 1024 -> exists s', rp_act None 0 None None D s (VPeer 7 fx_env) = (s', [RIncoming (match mget 7 (rp_peers s) with Some p => pr_cid p | None => 0 end) 7 k fx_msg; RYield (mkReq 7 k [x42])]) /\ filling (k + 1) s'.
Proof.
  intros ((p & P7 & Op & Eg & Pe) & P8 & Ch & Nr & Dr) Hk. cbn [rp_act]. unfold rp_peer. rewrite P7, Op. unfold peer_iter. cbn [p_flush_ok p_ready p_next p_pref p_send fx_env].
  assert (Pk : forall q, pr_pending q = pr_pending p -> pick (Some 0) (rp_os s) (pr_pending q) = None).
  { intros q ->. unfold pick. assert (F : filter (os_done (rp_os s)) (pr_pending p) = []).
    { destruct (filter (os_done (rp_os s)) (pr_pending p)) as [|x l] eqn:F; [reflexivity|]. assert (I : In x (filter (os_done (rp_os s)) (pr_pending p))) by (rewrite F; now left).
      apply filter_In in I. destruct I as [I J]. destruct (Pe x I) as [_ K]. unfold os_done in J. destruct x as [r i]. cbn [fst] in *. rewrite K in J. discriminate. }
    rewrite F. reflexivity. }
  set (p1 := if pr_flush p && true then mkPeer (pr_cid p) (pr_pending p) (pr_egress p) false (pr_open p) else p).
  assert (E1 : pr_egress p1 = [] /\ pr_pending p1 = pr_pending p /\ pr_open p1 = true) by (subst p1; destruct (pr_flush p && true); cbn; auto). destruct E1 as (E1 & E2 & E3).
  rewrite E1, (Pk p1 E2). unfold rp_on_request. cbn [rp_next_rid rp_dropped rp_chan]. rewrite Dr, Ch. change (try_decompress D (rr_ctype fx_msg) (rr_payload fx_msg)) with (Some [x42]).
  replace (rep_chan_cap <=? k) with false by (symmetry; apply N.leb_gt; exact Hk). cbn [orb]. eexists. split; [rewrite Nr; reflexivity|].
  unfold filling. cbn [rp_peers rp_chan rp_os rp_next_rid rp_dropped app]. rewrite mget_set_eq, mget_set_ne by discriminate. split.
  - eexists. split; [reflexivity|]. cbn [pr_open pr_egress pr_pending]. split; [exact E3|]. split; [reflexivity|]. rewrite E2. intros x Hx. apply in_app_or in Hx. destruct Hx as [Hx|[<-|[]]].
    + destruct (Pe x Hx). split; [lia|]. rewrite mget_set_ne; [assumption|lia].
    + cbn [fst]. rewrite ?Nr. split; [lia|apply mget_set_eq].
  - repeat split; auto; unfold blen in *. rewrite app_length. cbn [length]. lia.
Qed.
Lemma fill_run D n : forall k s, filling k s -> k + N.of_nat n <= 1024 -> exists s' log, rp_run None 0 None None D s (repeat (VPeer 7 fx_env) n) = (s', log) /\ filling (k + N.of_nat n) s' /\
  Forall (fun q => q_source q = 7) (RepSpec.yielded log) /\ length (RepSpec.yielded log) = n.
Proof.
  induction n as [|n IH]; intros k s F Hk.
  - exists s, []. cbn [repeat rp_run]. rewrite N.add_0_r. split; [reflexivity|]. split; [exact F|]. split; [constructor|reflexivity].
  - destruct (fill_step D k s F) as (s1 & A & F1); [lia|]. destruct (IH (k + 1) s1 F1) as (s2 & l2 & R & F2 & Y & L); [lia|].
    cbn [repeat rp_run]. rewrite A, R. eexists; eexists. split; [reflexivity|]. replace (k + N.of_nat (S n)) with (k + 1 + N.of_nat n) by lia. split; [exact F2|].
    cbn [app RepSpec.yielded flat_map length]. split; [constructor; [reflexivity|exact Y]|]. f_equal. exact L.
Qed.

(*@prop C84 (reply), refuted: the queue of requests waiting for the application is shared, and a full queue does not make the clients
    wait.  One client (address 7, connection 0) fills it with 1024 requests; the first request of another client
    (address 8, connection 1) is read and thrown away, and its sender is not told. *)
Lemma C84_reply_flood_refuted_pf :
  forall D, exists evs s log m,
  rp_run None 0 None None D rp_init evs = (s, log) /\
  Forall (fun q => q_source q = 7) (RepSpec.yielded log) /\ length (RepSpec.yielded log) = 1024%nat /\
  try_decompress D (rr_ctype m) (rr_payload m) = Some [x42] /\ In (RIncoming 1 8 1024 m) log /\ In (RLost 1024) log /\ mem 8 (rp_peers s) = true.
Proof.
  intros D. set (pre := [VAccept; VAccept; VConn 0 (Some (Some 7)); VConn 0 (Some (Some 8))]).
  destruct (rp_run None 0 None None D rp_init pre) as [s0 l0] eqn:R0. assert (F0 : filling 0 s0 /\ RepSpec.yielded l0 = []).
  { cbn in R0. inversion R0; subst. split; [|reflexivity]. unfold filling. cbn. split; [eexists; split; [reflexivity|]; cbn; repeat split; contradiction|auto]. }
  destruct F0 as [F0 Y0]. destruct (fill_run D 1024 0 s0 F0) as (s1 & l1 & R1 & F1 & Y1 & L1); [cbn; lia|]. change (0 + N.of_nat 1024) with 1024 in F1.
  destruct F1 as (_ & P8 & Ch & Nr & Dr). destruct (rp_act None 0 None None D s1 (VPeer 8 fx_env)) as [s2 l2] eqn:A2.
  assert (Q : l2 = [RIncoming 1 8 1024 fx_msg; RLost 1024] /\ mem 8 (rp_peers s2) = true).
  { cbn [rp_act] in A2. unfold rp_peer in A2. rewrite P8 in A2. cbn [pr_open] in A2. unfold peer_iter in A2. cbn [p_flush_ok p_ready p_next p_pref p_send fx_env pr_flush pr_egress pr_pending pr_cid pr_open andb pick filter find hd_error] in A2.
    unfold rp_on_request in A2. cbn [rp_next_rid rp_dropped rp_chan] in A2. rewrite Dr, Ch, Nr in A2. change (try_decompress D (rr_ctype fx_msg) (rr_payload fx_msg)) with (Some [x42]) in A2.
    change (false || (rep_chan_cap <=? 1024)) with true in A2. cbn [app] in A2. injection A2 as <- <-. split; [reflexivity|]. unfold mem. cbn [rp_peers]. rewrite mget_set_eq. reflexivity. }
  destruct Q as [-> Q].
  exists (pre ++ repeat (VPeer 7 fx_env) 1024 ++ [VPeer 8 fx_env]), s2, (l0 ++ l1 ++ [RIncoming 1 8 1024 fx_msg; RLost 1024]), fx_msg.
  split; [rewrite !RepDriverP.run_app, R0, RepDriverP.run_app, R1; cbn [rp_run]; rewrite A2; rewrite app_nil_r; reflexivity|].
  assert (Y : RepSpec.yielded (l0 ++ l1 ++ [RIncoming 1 8 1024 fx_msg; RLost 1024]) = RepSpec.yielded l1) by (unfold RepSpec.yielded in *; rewrite !flat_map_app, Y0; cbn; apply app_nil_r).
  rewrite Y. split; [exact Y1|]. split; [exact L1|]. split; [reflexivity|].
  split; [rewrite !in_app_iff; right; right; now left|]. split; [rewrite !in_app_iff; right; right; right; now left|exact Q].
Qed.

(*@prop C84 (subscriber), what holds: a turn of the session of one connection, and of the driver's work for one publisher address, leaves
    all other connections and addresses as they are. *)
Lemma C84_subscriber_turns_partial_pf :
  (forall token ingress initial D s d e s' o, sb_act token ingress initial D s (YSess d e) = (s', o) ->
     (forall c, c <> d -> mget c (sb_conns s') = mget c (sb_conns s)) /\ sb_pubs s' = sb_pubs s /\ sb_tasks s' = sb_tasks s /\
     sb_topics s' = sb_topics s /\ sb_out s' = sb_out s /\ sb_cmdq s' = sb_cmdq s) /\
  (forall token ingress initial D s a now s' o, sb_act token ingress initial D s (YEntry a now) = (s', o) ->
     (forall c, mget a (sb_pubs s) <> Some (PActive c) -> mget c (sb_conns s') = mget c (sb_conns s)) /\
     (forall b, b <> a -> mget b (sb_pubs s') = mget b (sb_pubs s)) /\ sb_topics s' = sb_topics s /\ sb_cmdq s' = sb_cmdq s /\
     exists w, sb_out s' = sb_out s ++ w).
Proof.
  split.
  - intros token ingress initial D s d e s' o A. cbn [sb_act] in A. unfold sb_session in A. destruct (mget d (sb_conns s)) as [x|]; [|inversion A; subst; auto 10].
    destruct (sc_alive x); [|inversion A; subst; auto 10]. destruct (ss_iter d e x) as [[x' o'] r]. inversion A; subst. cbn. repeat split; auto. intros c Hc. apply mget_set_ne. congruence.
  - intros token ingress initial D s a now s' o A. cbn [sb_act] in A. unfold sb_entry in A.
    assert (W0 : exists w : list (N * addr * bytes * bytes), sb_out s = sb_out s ++ w) by (exists []; now rewrite app_nil_r).
    destruct (mget a (sb_pubs s)) as [[cid|b]|] eqn:G; [| |inversion A; subst; auto 10].
    + destruct (mget cid (sb_conns s)) as [x|] eqn:Gc; [|inversion A; subst; auto 10]. destruct (sc_in x) as [|m rest].
      * destruct (sc_alive x); [inversion A; subst; auto 10|]. unfold sb_reset, sb_release in A. rewrite G, Gc in A. cbn in A. inversion A; subst. cbn.
        repeat split; auto; [intros c Hc; apply mget_set_ne; congruence|intros b Hb; apply mget_set_ne; congruence].
      * destruct (try_decompress D (tm_ctype m) (tm_payload m)); [|inversion A; subst; cbn; repeat split; auto; intros c Hc; apply mget_set_ne; congruence].
        unfold sb_pass in A. cbn in A. destruct (sb_dropped s); [|destruct (blen (sb_out s) <? ingress)]; inversion A; subst; cbn; repeat split; auto; try (intros c Hc; apply mget_set_ne; congruence). eexists; reflexivity.
    + destruct (bo_poll now b) as [b' []]; [destruct (jm_contains a (sb_tasks s)); [|unfold sb_connect in A; destruct (jm_spawn _ _) as [j st]]|..]; cbv zeta in A; inversion A; subst; cbn; repeat split; auto; try (exists []; now rewrite app_nil_r); try (intros c Hc; first [apply mget_set_ne; congruence|apply mget_del_ne; congruence]).
Qed.

(*@prop C84 (subscriber), refuted: the queue to the application is shared.  With a queue of one message, a message of the first publisher
    that the application has not taken yet makes the driver throw the second publisher's message away. *)
Lemma C84_subscriber_flood_refuted_pf :
  exists evs s log m a, sb_run None 1 1000 sx_D sb_init evs = (s, log) /\ In (UDeliver 1 m a [x02] TFull) log /\
    (forall c m' a' p t, In (UDeliver c m' a' p t) log -> c = 1 \/ a' = sx_addr /\ c = 0) /\ a <> sx_addr.
Proof.
  set (a := AV4 2130706433 81).
  exists (sx_open ++ [YApi (ApConnect true (Some a)); YCommand; YJoin 0 (JConn true []) []; YSess 0 (sx_env (sx_msg x00 [x01])); YSess 1 (sx_env (sx_msg x00 [x02])); YEntry sx_addr 5; YEntry a 5]).
  do 3 eexists. exists a. split; [vm_compute; reflexivity|]. split; [cbn; repeat (first [left; reflexivity|right])|]. split; [|discriminate].
  intros c m' a' p t H. cbn in H. repeat destruct H as [H|H]; try discriminate; try contradiction; inversion H; subst; auto.
Qed.

(** ** Subscriber: two histories *)
Definition dinv (d : N) (s : sb) : Prop :=
  NoDup (mkeys (sb_pubs s)) /\
  (forall a, mget a (sb_pubs s) = Some (PActive d) -> d < sb_next s /\ exists x, mget d (sb_conns s) = Some x /\ sc_alive x = true /\ sc_held x = true /\ sc_addr x = a).
Definition ssim (d : N) (s1 s2 : sb) : Prop :=
  sb_cmdq s1 = sb_cmdq s2 /\ sb_dropped s1 = sb_dropped s2 /\ sb_tasks s1 = sb_tasks s2 /\ sb_topics s1 = sb_topics s2 /\ sb_pubs s1 = sb_pubs s2 /\
  sb_stats s1 = sb_stats s2 /\ sb_next s1 = sb_next s2 /\ (forall c, c <> d -> mget c (sb_conns s1) = mget c (sb_conns s2)) /\ dinv d s1 /\ dinv d s2.

Lemma os_app d a b : others_see d (a ++ b) = others_see d a ++ others_see d b. Proof. apply filter_app. Qed.
Lemma os_only d l : Forall (fun x => u_conn x = Some d) l -> others_see d l = [].
Proof.
  induction l as [|x l IH]; [reflexivity|]. intros H. inversion H; subst. cbn [others_see filter]. fold (others_see d l). rewrite IH by assumption.
  destruct x; try discriminate; cbn in *; try reflexivity; injection H2 as ->; now rewrite N.eqb_refl.
Qed.

(** The part of the state a step about connection [d] may touch. *)
Lemma dinv_out d s q : dinv d s -> dinv d (sb_set_out s q). Proof. auto. Qed.

Lemma ssim_release d st s1 s2 s1' o1 s2' o2 : (forall c, c <> d -> mget c (sb_conns s1) = mget c (sb_conns s2)) -> sb_release st s1 = (s1', o1) -> sb_release st s2 = (s2', o2) ->
  (forall c, c <> d -> mget c (sb_conns s1') = mget c (sb_conns s2')) /\ others_see d o1 = others_see d o2 /\
  (st <> Some (PActive d) -> mget d (sb_conns s1') = mget d (sb_conns s1) /\ mget d (sb_conns s2') = mget d (sb_conns s2)).
Proof.
  intros E R1 R2. unfold sb_release in *. destruct st as [[c|b]|]; [|injection R1 as <- <-; injection R2 as <- <-; auto..].
  destruct (N.eq_dec c d) as [->|Ne].
  - assert (K : forall s s' o, match mget d (sb_conns s) with Some x => (sb_set_conns s (mset d (sc_release x) (sb_conns s)), [UClosed d (sc_in x)]) | None => (s, []) end = (s', o) ->
      (forall c, c <> d -> mget c (sb_conns s') = mget c (sb_conns s)) /\ others_see d o = []).
    { intros s s' o. destruct (mget d (sb_conns s)) as [x|]; intros [= <- <-]; (split; [intros c Hc|]); cbn; auto; [apply mget_set_ne; congruence|now rewrite N.eqb_refl]. }
    destruct (K _ _ _ R1) as (A1 & B1). destruct (K _ _ _ R2) as (A2 & B2). split; [intros c Hc; rewrite A1, A2 by exact Hc; auto|]. split; [congruence|]. congruence.
  - rewrite <- (E c Ne) in R2. destruct (mget c (sb_conns s1)) as [x|]; injection R1 as <- <-; injection R2 as <- <-; [|auto]. cbn [sb_set_conns sb_conns].
    split; [intros k Hk; rewrite !mget_set; destruct (eq_dec k c); auto|]. split; [reflexivity|]. intros _. rewrite !mget_set_ne by congruence. auto.
Qed.

Lemma release_rest st s s' o : sb_release st s = (s', o) -> sb_cmdq s' = sb_cmdq s /\ sb_out s' = sb_out s /\ sb_dropped s' = sb_dropped s /\ sb_tasks s' = sb_tasks s /\ sb_topics s' = sb_topics s /\ sb_pubs s' = sb_pubs s /\ sb_stats s' = sb_stats s /\ sb_next s' = sb_next s.
Proof. unfold sb_release. destruct st as [[c|b]|]; [destruct (mget c (sb_conns s))|..]; intros [= <- <-]; auto 9. Qed.

(** After the driver has let go of whatever address [a] had, and [a] is given no connection. *)
Lemma dinv_drop d a s s' o ps : dinv d s -> sb_release (mget a (sb_pubs s)) s = (s', o) -> NoDup (mkeys ps) ->
  (forall b, mget b ps = Some (PActive d) -> b <> a /\ mget b (sb_pubs s) = Some (PActive d)) -> dinv d (sb_set_pubs s' ps).
Proof.
  intros [Nd I] R Nd' H. destruct (release_rest _ _ _ _ R) as (_ & _ & _ & _ & _ & _ & _ & Nx). split; [exact Nd'|]. cbn [sb_set_pubs sb_pubs sb_conns sb_next]. intros b Gb. destruct (H b Gb) as (Nb & G). rewrite Nx.
  destruct (I b G) as (Lt & x & Gx & Al & He & Ad). split; [exact Lt|]. exists x. split; [|auto].
  destruct (mget a (sb_pubs s)) as [[c|bo]|] eqn:Ga; cbn [sb_release] in R; [|injection R as <- <-; exact Gx..].
  destruct (N.eq_dec c d) as [->|Ne].
  - exfalso. destruct (I a Ga) as (_ & x' & Gx' & _ & _ & Ad'). congruence.
  - destruct (mget c (sb_conns s)) as [y|]; injection R as <- <-; [|exact Gx]. cbn. rewrite mget_set_ne by congruence. exact Gx.
Qed.

Lemma ssim_reset d initial a s1 s2 s1' o1 s2' o2 : ssim d s1 s2 -> sb_reset initial a s1 = (s1', o1) -> sb_reset initial a s2 = (s2', o2) -> ssim d s1' s2' /\ others_see d o1 = others_see d o2.
Proof.
  intros (E1 & E2 & E3 & E4 & E5 & E6 & E7 & E8 & D1 & D2) R1 R2. unfold sb_reset in *. destruct (sb_release (mget a (sb_pubs s1)) s1) as [t1 p1] eqn:L1. destruct (sb_release (mget a (sb_pubs s2)) s2) as [t2 p2] eqn:L2.
  injection R1 as <- <-. injection R2 as <- <-. pose proof L1 as L1'. rewrite E5 in L1'. destruct (ssim_release d _ _ _ _ _ _ _ E8 L1' L2) as (C & O & _).
  destruct (release_rest _ _ _ _ L1) as (A1 & _ & A2 & A3 & A4 & A5 & A6 & A7). destruct (release_rest _ _ _ _ L2) as (B1 & _ & B2 & B3 & B4 & B5 & B6 & B7).
  split; [|rewrite !os_app, O; reflexivity]. unfold ssim. cbn [sb_set_pubs sb_cmdq sb_dropped sb_tasks sb_topics sb_pubs sb_stats sb_next sb_conns].
  split; [congruence|]. split; [congruence|]. split; [congruence|]. split; [congruence|]. split; [congruence|]. split; [congruence|]. split; [congruence|]. split; [exact C|].
  assert (K : forall s t p, dinv d s -> sb_release (mget a (sb_pubs s)) s = (t, p) -> sb_pubs t = sb_pubs s -> dinv d (sb_set_pubs t (mset a (PInactive (bo_new initial MAX_RETRIES)) (sb_pubs t)))).
  { intros s t p Di Rl Ep. rewrite Ep. apply (dinv_drop d a s t p); auto; [apply nodup_set, Di|]. intros b Gb. rewrite mget_set in Gb. destruct (eq_dec b a); [discriminate|auto]. }
  split; [exact (K _ _ _ D1 L1 A5)|exact (K _ _ _ D2 L2 B5)].
Qed.

Definition alive_in (d : N) (s : sb) : Prop := exists x, mget d (sb_conns s) = Some x /\ sc_alive x = true.
Lemma reset_alive d initial a s s' o : sb_reset initial a s = (s', o) -> alive_in d s -> alive_in d s'.
Proof.
  unfold sb_reset. destruct (sb_release (mget a (sb_pubs s)) s) as [t p] eqn:R. intros [= <- <-] (x & G & A). unfold alive_in. cbn [sb_set_pubs sb_conns]. unfold sb_release in R.
  destruct (mget a (sb_pubs s)) as [[c|b]|]; [|injection R as <- <-; eauto..]. destruct (mget c (sb_conns s)) as [y|] eqn:Gc; injection R as <- <-; [|eauto]. cbn [sb_set_conns sb_conns].
  rewrite mget_set. destruct (eq_dec d c) as [<-|]; [|eauto]. rewrite G in Gc. injection Gc as <-. eexists. split; [reflexivity|exact A].
Qed.

(** Updating a connection. *)
Lemma try_keeps c x x' r : sc_try c x = (x', r) -> sc_alive x' = sc_alive x /\ sc_held x' = sc_held x /\ sc_addr x' = sc_addr x /\ (sc_alive x = true -> r <> TClosed).
Proof. unfold sc_try. destruct (sc_alive x) eqn:A; cbn [negb]; [destruct (_ <? _)|]; intros [= <- <-]; cbn; repeat split; auto; congruence. Qed.
Lemma dinv_upd d s x x' : dinv d s -> mget d (sb_conns s) = Some x -> (sc_alive x = true -> sc_held x = true -> sc_alive x' = true) -> sc_held x' = sc_held x -> sc_addr x' = sc_addr x ->
  dinv d (sb_set_conns s (mset d x' (sb_conns s))).
Proof.
  intros [Nd I] G A H Ad. split; [exact Nd|]. cbn [sb_set_conns sb_pubs sb_next sb_conns]. intros a Ga. destruct (I a Ga) as (Lt & y & Gy & Y1 & Y2 & Y3). split; [exact Lt|]. rewrite Gy in G. injection G as ->.
  exists x'. rewrite mget_set_eq. repeat split; auto; congruence.
Qed.
Lemma dinv_upd_other d s c x : dinv d s -> c <> d -> dinv d (sb_set_conns s (mset c x (sb_conns s))).
Proof. intros [Nd I] Ne. split; [exact Nd|]. cbn [sb_set_conns sb_pubs sb_next sb_conns]. intros a Ga. rewrite mget_set_ne by congruence. auto. Qed.
Lemma ssim_upd_other d s1 s2 c x : ssim d s1 s2 -> c <> d -> ssim d (sb_set_conns s1 (mset c x (sb_conns s1))) (sb_set_conns s2 (mset c x (sb_conns s2))).
Proof.
  intros (E1 & E2 & E3 & E4 & E5 & E6 & E7 & E8 & D1 & D2) Ne. repeat (split; [assumption|]). split; [|split; now apply dinv_upd_other].
  intros k Hk. cbn. rewrite !mget_set. destruct (eq_dec k c); auto.
Qed.
Lemma ssim_upd_l d s1 s2 x : ssim d s1 s2 -> dinv d (sb_set_conns s1 (mset d x (sb_conns s1))) -> ssim d (sb_set_conns s1 (mset d x (sb_conns s1))) s2.
Proof.
  intros (E1 & E2 & E3 & E4 & E5 & E6 & E7 & E8 & D1 & D2) D. repeat (split; [assumption|]). split; [|split; assumption]. intros k Hk. cbn. rewrite mget_set_ne by congruence. auto.
Qed.
Lemma ssim_sym d s1 s2 : ssim d s1 s2 -> ssim d s2 s1.
Proof. intros (E1 & E2 & E3 & E4 & E5 & E6 & E7 & E8 & D1 & D2). repeat (split; [congruence|]). split; [|auto]. intros c Hc. symmetry. auto. Qed.

Lemma ssim_tell d initial c : forall l s1 s2 s1' o1 s2' o2, ssim d s1 s2 -> ((exists a, In (a, PActive d) l) -> alive_in d s1 /\ alive_in d s2) ->
  sb_tell initial c l s1 = (s1', o1) -> sb_tell initial c l s2 = (s2', o2) -> ssim d s1' s2' /\ others_see d o1 = others_see d o2.
Proof.
  induction l as [|[a [k|b]] l IH]; intros s1 s2 s1' o1 s2' o2 S Al T1 T2; cbn [sb_tell] in T1, T2.
  - injection T1 as <- <-. injection T2 as <- <-. auto.
  - assert (Al' : (exists a, In (a, PActive d) l) -> alive_in d s1 /\ alive_in d s2) by (intros (a' & H); apply Al; exists a'; now right).
    destruct (N.eq_dec k d) as [->|Ne].
    + destruct (Al (ex_intro _ a (or_introl eq_refl))) as ((x1 & G1 & A1) & (x2 & G2 & A2)). rewrite G1 in T1. rewrite G2 in T2.
      destruct (sc_try c x1) as [y1 r1] eqn:C1. destruct (sc_try c x2) as [y2 r2] eqn:C2. destruct (try_keeps _ _ _ _ C1) as (K1 & K2 & K3 & K4). destruct (try_keeps _ _ _ _ C2) as (M1 & M2 & M3 & M4).
      replace (match r1 with TClosed => sb_reset initial a (sb_set_conns s1 (mset d y1 (sb_conns s1))) | _ => (sb_set_conns s1 (mset d y1 (sb_conns s1)), []) end) with (sb_set_conns s1 (mset d y1 (sb_conns s1)), @nil uout) in T1 by (destruct r1; auto; destruct (K4 A1 eq_refl)).
      replace (match r2 with TClosed => sb_reset initial a (sb_set_conns s2 (mset d y2 (sb_conns s2))) | _ => (sb_set_conns s2 (mset d y2 (sb_conns s2)), []) end) with (sb_set_conns s2 (mset d y2 (sb_conns s2)), @nil uout) in T2 by (destruct r2; auto; destruct (M4 A2 eq_refl)).
      destruct (sb_tell initial c l (sb_set_conns s1 (mset d y1 (sb_conns s1)))) as [t1 p1] eqn:U1. destruct (sb_tell initial c l (sb_set_conns s2 (mset d y2 (sb_conns s2)))) as [t2 p2] eqn:U2. injection T1 as <- <-. injection T2 as <- <-.
      assert (S' : ssim d (sb_set_conns s1 (mset d y1 (sb_conns s1))) (sb_set_conns s2 (mset d y2 (sb_conns s2)))).
      { apply ssim_upd_l; [apply ssim_sym, ssim_upd_l; [apply ssim_sym; exact S|]|].
        + apply (dinv_upd d s2 x2 y2); [apply S|exact G2|congruence|exact M2|exact M3].
        + apply (dinv_upd d s1 x1 y1); [apply S|exact G1|congruence|exact K2|exact K3]. }
      assert (Aa : (exists a, In (a, PActive d) l) -> alive_in d (sb_set_conns s1 (mset d y1 (sb_conns s1))) /\ alive_in d (sb_set_conns s2 (mset d y2 (sb_conns s2)))).
      { intros _. split; [exists y1|exists y2]; cbn; rewrite mget_set_eq; split; congruence. }
      destruct (IH _ _ _ _ _ _ S' Aa U1 U2) as (R1 & R2). split; [exact R1|].
      rewrite ?app_nil_l. change (others_see d ([UTry d c r1] ++ p1) = others_see d ([UTry d c r2] ++ p2)). rewrite !os_app, R2, !(os_only d [UTry _ _ _]) by (repeat constructor). reflexivity.
    + assert (Eq : mget k (sb_conns s1) = mget k (sb_conns s2)) by (apply S; exact Ne). rewrite <- Eq in T2. destruct (mget k (sb_conns s1)) as [x|]; [|exact (IH _ _ _ _ _ _ S Al' T1 T2)].
      destruct (sc_try c x) as [y r]. pose proof (ssim_upd_other d s1 s2 k y S Ne) as S1.
      assert (Al1 : (exists a, In (a, PActive d) l) -> alive_in d (sb_set_conns s1 (mset k y (sb_conns s1))) /\ alive_in d (sb_set_conns s2 (mset k y (sb_conns s2)))).
      { intros H. destruct (Al' H) as (H1 & H2). unfold alive_in in *. cbn. rewrite !mget_set_ne by congruence. auto. }
      set (u1 := sb_set_conns s1 (mset k y (sb_conns s1))) in *. set (u2 := sb_set_conns s2 (mset k y (sb_conns s2))) in *.
      assert (K : exists v1 q1 v2 q2, (match r with TClosed => sb_reset initial a u1 | _ => (u1, []) end) = (v1, q1) /\ (match r with TClosed => sb_reset initial a u2 | _ => (u2, []) end) = (v2, q2) /\
        ssim d v1 v2 /\ others_see d q1 = others_see d q2 /\ ((exists a, In (a, PActive d) l) -> alive_in d v1 /\ alive_in d v2)).
      { destruct r; [exists u1, [], u2, []; auto..|]. destruct (sb_reset initial a u1) as [v1 q1] eqn:V1. destruct (sb_reset initial a u2) as [v2 q2] eqn:V2. exists v1, q1, v2, q2.
        destruct (ssim_reset d initial a _ _ _ _ _ _ S1 V1 V2) as (X1 & X2). split; [reflexivity|]. split; [reflexivity|]. split; [exact X1|]. split; [exact X2|]. intros H. destruct (Al1 H) as (H1 & H2). split; [exact (reset_alive _ _ _ _ _ _ V1 H1)|exact (reset_alive _ _ _ _ _ _ V2 H2)]. }
      destruct K as (v1 & q1 & v2 & q2 & V1 & V2 & S2 & Oq & Al2). rewrite V1 in T1. rewrite V2 in T2. destruct (sb_tell initial c l v1) as [t1 p1] eqn:U1. destruct (sb_tell initial c l v2) as [t2 p2] eqn:U2. injection T1 as <- <-. injection T2 as <- <-.
      destruct (IH _ _ _ _ _ _ S2 Al2 U1 U2) as (R1 & R2). split; [exact R1|]. change (UTry k c r :: q1 ++ p1) with ([UTry k c r] ++ q1 ++ p1). change (UTry k c r :: q2 ++ p2) with ([UTry k c r] ++ q2 ++ p2). now rewrite !os_app, Oq, R2.
  - apply (IH _ _ _ _ _ _ S); auto. intros (a' & H); apply Al; exists a'; now right.
Qed.

(** One step of the session of [d], on one side only. *)
Lemma iter_only d e x x' o r : ss_iter d e x = (x', o, r) -> sc_alive x = true ->
  Forall (fun y => u_conn y = Some d) o /\ sc_held x' = sc_held x /\ sc_addr x' = sc_addr x /\ (sc_alive x' = true \/ sc_held x = false \/ In (UCrash d) o).
Proof.
  assert (Eg : forall eg ans e o p f, eg_loop d eg ans = (e, o, p, f) -> Forall (fun y => u_conn y = Some d) o).
  { induction eg as [|m eg IH]; intros ans e0 o0 p f; cbn [eg_loop]; [intros [= <- <- <- <-]; constructor|].
    destruct ans as [|[| |] ans]; try (intros [= <- <- <- <-]; repeat constructor); destruct (eg_loop d eg ans) as [[[e1 o1] p1] f1] eqn:E; intros [= <- <- <- <-]; constructor; try reflexivity; eapply IH; exact E. }
  unfold ss_iter. cbv zeta. intros H Al. destruct (y_next e) as [m| | |].
  - unfold ss_incoming in H. cbv zeta in H. cbn [sc_held sc_in sc_set_egress sc_rx sc_lat] in H. destruct (sc_held x) eqn:He; cbn [negb] in H; [destruct (_ <? _)|]; injection H as <- <- <-; cbn; (split; [repeat constructor|auto]).
  - injection H as <- <- <-. cbn. split; [repeat constructor|auto].
  - destruct (eg_loop d _ (y_sends e)) as [[[eg o1] pr] f] eqn:E. pose proof (Eg _ _ _ _ _ _ E) as Fo. destruct pr; [injection H as <- <- <-; cbn; auto|]. cbn [sc_set_egress sc_cmds] in H. destruct (sc_cmds x) as [|c cs].
    + cbn [sc_held sc_set_egress] in H. destruct (sc_held x) eqn:He; injection H as <- <- <-; cbn; [auto|]. split; [apply Forall_app; split; [exact Fo|repeat constructor]|auto].
    + destruct (cmd_frame (y_now e) c); injection H as <- <- <-; cbn; (split; [apply Forall_app; split; [exact Fo|repeat constructor]|]); split; auto; split; auto. right; right. apply in_or_app. right. right. left. reflexivity.
  - destruct (eg_loop d _ (y_sends e)) as [[[eg o1] pr] f] eqn:E. pose proof (Eg _ _ _ _ _ _ E) as Fo. destruct pr; [injection H as <- <- <-; cbn; auto|]. cbn [sc_set_egress sc_cmds] in H. destruct (sc_cmds x) as [|c cs].
    + cbn [sc_held sc_set_egress] in H. destruct (sc_held x) eqn:He; injection H as <- <- <-; cbn; [auto|]. split; [apply Forall_app; split; [exact Fo|repeat constructor]|auto].
    + destruct (cmd_frame (y_now e) c); injection H as <- <- <-; cbn; (split; [apply Forall_app; split; [exact Fo|repeat constructor]|]); split; auto; split; auto. right; right. apply in_or_app. right. right. left. reflexivity.
Qed.

Lemma ssim_sess_l d token ingress initial D e s1 s2 s1' o1 : ssim d s1 s2 -> sb_act token ingress initial D s1 (YSess d e) = (s1', o1) -> ~ In (UCrash d) o1 -> ssim d s1' s2 /\ others_see d o1 = [].
Proof.
  intros S. cbn [sb_act]. unfold sb_session. destruct (mget d (sb_conns s1)) as [x|] eqn:G; [|intros [= <- <-] _; auto]. destruct (sc_alive x) eqn:Al; [|intros [= <- <-] _; auto].
  destruct (ss_iter d e x) as [[x' o] r] eqn:I. intros [= <- <-] Nc. destruct (iter_only _ _ _ _ _ _ I Al) as (F & H & Ad & Cr). split; [|apply os_only, F].
  apply ssim_upd_l; [exact S|]. apply (dinv_upd d s1 x x'); [apply S|exact G| |exact H|exact Ad]. intros _ He. destruct Cr as [C|[C|C]]; [exact C|congruence|contradiction].
Qed.
Lemma ssim_take_l d token ingress initial D s1 s2 s1' o1 : ssim d s1 s2 -> sb_act token ingress initial D s1 YTake = (s1', o1) -> ssim d s1' s2 /\ others_see d o1 = [].
Proof. intros S. cbn [sb_act]. unfold sb_take. destruct (sb_out s1) as [|[[[c a] t] p] q]; intros [= <- <-]; (split; [exact S|reflexivity]). Qed.

Ltac ssplit := repeat match goal with |- _ /\ _ => split end.

Lemma ssim_connect d a s1 s2 s1' o1 s2' o2 : ssim d s1 s2 -> sb_connect a s1 = (s1', o1) -> sb_connect a s2 = (s2', o2) -> ssim d s1' s2' /\ o1 = o2.
Proof.
  intros (E1 & E2 & E3 & E4 & E5 & E6 & E7 & E8 & D1 & D2) C1 C2. unfold sb_connect in *. rewrite E3 in C1. destruct (jm_spawn a (sb_tasks s2)) as [j st]. injection C1 as <- <-. injection C2 as <- <-.
  split; [|reflexivity]. unfold ssim. cbn [sb_set_tasks sb_cmdq sb_dropped sb_tasks sb_topics sb_pubs sb_stats sb_next sb_conns]. ssplit; first [assumption|reflexivity|exact D1|exact D2].
Qed.

Lemma ssim_pubs d s1 s2 ps : ssim d s1 s2 -> NoDup (mkeys ps) -> (forall b, mget b ps = Some (PActive d) -> mget b (sb_pubs s1) = Some (PActive d)) -> ssim d (sb_set_pubs s1 ps) (sb_set_pubs s2 ps).
Proof.
  intros (E1 & E2 & E3 & E4 & E5 & E6 & E7 & E8 & [N1 D1] & [N2 D2]) Nd H. unfold ssim. cbn [sb_set_pubs sb_cmdq sb_dropped sb_tasks sb_topics sb_pubs sb_stats sb_next sb_conns].
  repeat (split; [assumption || reflexivity|]). split; (split; [exact Nd|]); cbn [sb_set_pubs sb_pubs sb_next sb_conns]; intros b Gb; [apply D1|apply D2; rewrite <- E5]; auto.
Qed.
Lemma ssim_cmdq d s1 s2 q : ssim d s1 s2 -> ssim d (sb_set_cmdq s1 q) (sb_set_cmdq s2 q).
Proof. intros (E1 & E2 & E3 & E4 & E5 & E6 & E7 & E8 & D1 & D2). unfold ssim. cbn. ssplit; first [assumption|reflexivity|exact D1|exact D2]. Qed.
Lemma ssim_topics d s1 s2 q : ssim d s1 s2 -> ssim d (sb_set_topics s1 q) (sb_set_topics s2 q).
Proof. intros (E1 & E2 & E3 & E4 & E5 & E6 & E7 & E8 & D1 & D2). unfold ssim. cbn. ssplit; first [assumption|reflexivity|exact D1|exact D2]. Qed.

Lemma dinv_alive d s l : dinv d s -> sb_pubs s = l -> (exists a, In (a, PActive d) l) -> alive_in d s.
Proof. intros [Nd I] <- (a & H). destruct (I a (in_mget _ _ _ Nd H)) as (_ & x & G & A & _). exists x. auto. Qed.

Lemma ssim_command d initial c s1 s2 s1' o1 s2' o2 : ssim d s1 s2 -> sb_command initial c s1 = (s1', o1) -> sb_command initial c s2 = (s2', o2) -> ssim d s1' s2' /\ others_see d o1 = others_see d o2.
Proof.
  intros S C1 C2. pose proof S as (E1 & E2 & E3 & E4 & E5 & E6 & E7 & E8 & D1 & D2). destruct c as [t|t|a|a|]; cbn [sb_command] in C1, C2; cbv zeta in C1, C2.
  - rewrite <- E4 in C2. destruct (smem t (sb_topics s1)); [injection C1 as <- <-; injection C2 as <- <-; auto|]. cbn [sb_set_topics sb_pubs] in C1, C2. rewrite <- E5 in C2.
    refine (ssim_tell d initial _ _ _ _ _ _ _ _ (ssim_topics d s1 s2 _ S) _ C1 C2). intros H. split; [exact (dinv_alive d s1 _ D1 eq_refl H)|exact (dinv_alive d s2 _ D2 (eq_sym E5) H)].
  - rewrite <- E4 in C2. destruct (smem t (sb_topics s1)); [|injection C1 as <- <-; injection C2 as <- <-; auto]. cbn [sb_set_topics sb_pubs] in C1, C2. rewrite <- E5 in C2.
    refine (ssim_tell d initial _ _ _ _ _ _ _ _ (ssim_topics d s1 s2 _ S) _ C1 C2). intros H. split; [exact (dinv_alive d s1 _ D1 eq_refl H)|exact (dinv_alive d s2 _ D2 (eq_sym E5) H)].
  - rewrite <- E5 in C2. destruct (mem a (sb_pubs s1)); [injection C1 as <- <-; injection C2 as <- <-; auto|].
    destruct (sb_connect a s1) as [t1 p1] eqn:X1. destruct (sb_connect a s2) as [t2 p2] eqn:X2. destruct (ssim_connect d a _ _ _ _ _ _ S X1 X2) as (S1 & ->).
    destruct (sb_reset initial a t1) as [u1 q1] eqn:Y1. destruct (sb_reset initial a t2) as [u2 q2] eqn:Y2. injection C1 as <- <-. injection C2 as <- <-. destruct (ssim_reset d initial a _ _ _ _ _ _ S1 Y1 Y2) as (S2 & O). split; [exact S2|]. now rewrite !os_app, O.
  - rewrite <- E5 in C2. destruct (mget a (sb_pubs s1)) as [st|] eqn:Ga; [|injection C1 as <- <-; injection C2 as <- <-; auto].
    destruct (sb_release (Some st) s1) as [t1 p1] eqn:L1. destruct (sb_release (Some st) s2) as [t2 p2] eqn:L2. injection C1 as <- <-. injection C2 as <- <-.
    destruct (ssim_release d _ _ _ _ _ _ _ E8 L1 L2) as (C & O & _). split; [|exact O].
    destruct (release_rest _ _ _ _ L1) as (A1 & _ & A2 & A3 & A4 & A5 & A6 & A7). destruct (release_rest _ _ _ _ L2) as (B1 & _ & B2 & B3 & B4 & B5 & B6 & B7).
    assert (K : forall s t p, dinv d s -> mget a (sb_pubs s) = Some st -> sb_release (Some st) s = (t, p) -> sb_pubs t = sb_pubs s -> dinv d (sb_set_pubs t (mdel a (sb_pubs t)))).
    { intros s t p Di Gs Rl Ep. rewrite Ep. rewrite <- Gs in Rl. apply (dinv_drop d a s t p); auto; [apply nodup_del, Di|]. intros b Gb. rewrite mget_del in Gb. destruct (eq_dec b a); [discriminate|auto]. }
    pose proof (K _ _ _ D1 Ga L1 A5) as K1. pose proof (K _ _ _ D2 ltac:(congruence) L2 B5) as K2. unfold ssim. cbn [sb_set_stats sb_set_pubs sb_cmdq sb_dropped sb_tasks sb_topics sb_pubs sb_stats sb_next sb_conns].
    split; [congruence|]. split; [congruence|]. split; [congruence|]. split; [congruence|]. split; [congruence|]. split; [congruence|]. split; [congruence|]. split; [exact C|]. split; [exact K1|exact K2].
  - injection C1 as <- <-. injection C2 as <- <-. auto.
Qed.

Lemma greet_keeps cid : forall ts x x' o, sb_greet cid ts x = (x', o) -> sc_alive x' = sc_alive x /\ sc_held x' = sc_held x /\ sc_addr x' = sc_addr x.
Proof.
  induction ts as [|t ts IH]; intros x x' o; cbn [sb_greet]; [intros [= <- <-]; auto|]. destruct (sc_try (SSub t) x) as [x1 r] eqn:T. destruct (sb_greet cid ts x1) as [x2 o2] eqn:G. intros [= <- <-].
  destruct (try_keeps _ _ _ _ T) as (A & B & C & _). destruct (IH _ _ _ G) as (A' & B' & C'). repeat split; congruence.
Qed.

Lemma ssim_connected d a order s1 s2 s1' o1 s2' o2 : ssim d s1 s2 -> sb_connected a order s1 = (s1', o1) -> sb_connected a order s2 = (s2', o2) -> ssim d s1' s2' /\ others_see d o1 = others_see d o2.
Proof.
  intros S C1 C2. pose proof S as (E1 & E2 & E3 & E4 & E5 & E6 & E7 & E8 & D1 & D2). unfold sb_connected in *. cbv zeta in C1, C2. rewrite <- E5 in C2. rewrite <- E7 in C2. rewrite <- E4 in C2.
  destruct (sb_greet (sb_next s1) (arrange order (sb_topics s1)) (sc_new a)) as [x o] eqn:G. destruct (greet_keeps _ _ _ _ _ G) as (G1 & G2 & G3). cbn in G1, G2, G3.
  assert (N : match mget a (sb_pubs s1) with Some (PActive _) => True | _ => ssim d s1' s2' /\ others_see d o1 = others_see d o2 end).
  { assert (K : mget a (sb_pubs s1) <> Some (PActive d) -> 
      (mkSb (sb_cmdq s1) (sb_out s1) (sb_dropped s1) (sb_tasks s1) (sb_topics s1) (mset a (PActive (sb_next s1)) (sb_pubs s1)) (mset a (sb_next s1) (sb_stats s1)) (mset (sb_next s1) x (sb_conns s1)) (sb_next s1 + 1), UOpen (sb_next s1) a :: o) = (s1', o1) ->
      (mkSb (sb_cmdq s2) (sb_out s2) (sb_dropped s2) (sb_tasks s2) (sb_topics s1) (mset a (PActive (sb_next s1)) (sb_pubs s1)) (mset a (sb_next s1) (sb_stats s2)) (mset (sb_next s1) x (sb_conns s2)) (sb_next s1 + 1), UOpen (sb_next s1) a :: o) = (s2', o2) ->
      ssim d s1' s2' /\ others_see d o1 = others_see d o2).
    { intros Na [= <- <-] [= <- <-]. split; [|reflexivity]. unfold ssim. cbn [sb_cmdq sb_dropped sb_tasks sb_topics sb_pubs sb_stats sb_next sb_conns].
      repeat (split; [congruence|]). split; [intros c Hc; rewrite !mget_set; destruct (eq_dec c (sb_next s1)); auto|].
      assert (Q : forall s cq ou dr tk, dinv d s -> sb_pubs s = sb_pubs s1 -> sb_next s = sb_next s1 -> dinv d (mkSb cq ou dr tk (sb_topics s1) (mset a (PActive (sb_next s1)) (sb_pubs s1)) (mset a (sb_next s1) (sb_stats s)) (mset (sb_next s1) x (sb_conns s)) (sb_next s1 + 1))).
      { intros s cq ou dr tk [Nd I] Ep En. split; [apply nodup_set; rewrite <- Ep; exact Nd|]. cbn [sb_pubs sb_next sb_conns]. intros b Gb. rewrite mget_set in Gb. destruct (eq_dec b a) as [->|Nb].
        - injection Gb as <-. split; [lia|]. exists x. rewrite mget_set_eq. auto.
        - rewrite <- Ep in Gb. destruct (I b Gb) as (Lt & y & Gy & R). split; [lia|]. exists y. split; [|exact R]. rewrite mget_set_ne; [exact Gy|]. intros X. rewrite En in Lt. lia. }
      split; [exact (Q s1 _ _ _ _ D1 eq_refl eq_refl)|exact (Q s2 _ _ _ _ D2 (eq_sym E5) (eq_sym E7))]. }
    destruct (mget a (sb_pubs s1)) as [[c|b]|]; [exact I|apply K; auto; discriminate|apply K; auto; discriminate]. }
  destruct (mget a (sb_pubs s1)) as [[c|b]|]; [|exact N..]. injection C1 as <- <-. injection C2 as <- <-. auto.
Qed.

Lemma ssim_tasks d s1 s2 j : ssim d s1 s2 -> ssim d (sb_set_tasks s1 j) (sb_set_tasks s2 j).
Proof. intros (E1 & E2 & E3 & E4 & E5 & E6 & E7 & E8 & D1 & D2). unfold ssim. cbn. ssplit; first [assumption|reflexivity|exact D1|exact D2]. Qed.

(** Passing a message on, unless the queue is full: the same on both sides. *)
Lemma pass_eq ingress cid a m p s s' o : sb_pass ingress cid a m p s = (s', o) -> ~ overflowed o -> (exists q, s' = sb_set_out s q) /\ o = [UDeliver cid m a p (if sb_dropped s then TClosed else TSent)].
Proof.
  unfold sb_pass. destruct (sb_dropped s) eqn:Dr; [intros [= <- <-] _; split; [exists (sb_out s); destruct s; reflexivity|reflexivity]|]. destruct (_ <? _); intros [= <- <-] Ov; [split; [eexists; reflexivity|reflexivity]|].
  exfalso. apply Ov. exists cid, m, a, p. left. reflexivity.
Qed.

Lemma ssim_entry d ingress initial D a now s1 s2 s1' o1 p1 s2' o2 p2 : ssim d s1 s2 -> sb_entry ingress initial D a now s1 = (s1', o1, p1) -> sb_entry ingress initial D a now s2 = (s2', o2, p2) ->
  ~ overflowed o1 -> ~ overflowed o2 -> ssim d s1' s2' /\ others_see d o1 = others_see d o2.
Proof.
  intros S C1 C2 V1 V2. pose proof S as (E1 & E2 & E3 & E4 & E5 & E6 & E7 & E8 & D1 & D2). unfold sb_entry in *. rewrite <- E5 in C2. destruct (mget a (sb_pubs s1)) as [[cid|b]|] eqn:Ga.
  - destruct (N.eq_dec cid d) as [->|Ne].
    + destruct (proj2 D1 a Ga) as (_ & x1 & G1 & A1 & H1 & _). destruct (proj2 D2 a ltac:(congruence)) as (_ & x2 & G2 & A2 & H2 & _). rewrite G1 in C1. rewrite G2 in C2.
      assert (K : forall s t x s' o pr, ssim d s t -> mget d (sb_conns s) = Some x -> sc_alive x = true ->
        match sc_in x with
        | [] => if sc_alive x then (s, [], false) else let (s1, o) := sb_reset initial a s in (s1, o, true)
        | m :: rest => let s1 := sb_set_conns s (mset d (sc_set_in x rest) (sb_conns s)) in match try_decompress D (tm_ctype m) (tm_payload m) with Some p => let (s2, o) := sb_pass ingress d a m p s1 in (s2, o, true) | None => (s1, [UUndecodable d m], false) end
        end = (s', o, pr) -> ~ overflowed o -> ssim d s' t /\ others_see d o = []).
      { intros s t x s' o pr St G A E V. rewrite A in E. destruct (sc_in x) as [|m rest]; [injection E as <- <- <-; auto|]. cbv zeta in E.
        assert (S1 : ssim d (sb_set_conns s (mset d (sc_set_in x rest) (sb_conns s))) t). { apply ssim_upd_l; [exact St|]. apply (dinv_upd d s x); [apply St|exact G|intros _ _; exact A|reflexivity|reflexivity]. }
        destruct (try_decompress D (tm_ctype m) (tm_payload m)) as [p|]; [|injection E as <- <- <-; split; [exact S1|apply os_only; repeat constructor]].
        destruct (sb_pass ingress d a m p _) as [s3 o3] eqn:P. injection E as <- <- <-. destruct (pass_eq _ _ _ _ _ _ _ _ P V) as ((q & ->) & ->). split; [exact S1|apply os_only; repeat constructor]. }
      destruct (K s1 s2 x1 s1' o1 p1 S G1 A1 C1 V1) as (S1 & O1). destruct (K s2 s1' x2 s2' o2 p2 (ssim_sym _ _ _ S1) G2 A2 C2 V2) as (S2 & O2). split; [apply ssim_sym; exact S2|congruence].
    + rewrite <- (E8 cid Ne) in C2. destruct (mget cid (sb_conns s1)) as [x|] eqn:Gx; [|injection C1 as <- <- <-; injection C2 as <- <- <-; auto]. destruct (sc_in x) as [|m rest].
      * destruct (sc_alive x); [injection C1 as <- <- <-; injection C2 as <- <- <-; auto|]. destruct (sb_reset initial a s1) as [t1 q1] eqn:X1. destruct (sb_reset initial a s2) as [t2 q2] eqn:X2. injection C1 as <- <- <-; injection C2 as <- <- <-. exact (ssim_reset d initial a _ _ _ _ _ _ S X1 X2).
      * cbv zeta in C1, C2. pose proof (ssim_upd_other d s1 s2 cid (sc_set_in x rest) S Ne) as S1. destruct (try_decompress D (tm_ctype m) (tm_payload m)) as [p|]; [|injection C1 as <- <- <-; injection C2 as <- <- <-; auto].
        destruct (sb_pass ingress cid a m p (sb_set_conns s1 _)) as [t1 q1] eqn:X1. destruct (sb_pass ingress cid a m p (sb_set_conns s2 _)) as [t2 q2] eqn:X2. injection C1 as <- <- <-; injection C2 as <- <- <-.
        destruct (pass_eq _ _ _ _ _ _ _ _ X1 V1) as ((z1 & ->) & ->). destruct (pass_eq _ _ _ _ _ _ _ _ X2 V2) as ((z2 & ->) & ->). split; [exact S1|]. cbn [sb_set_conns sb_dropped]. now rewrite E2.
  - assert (Sb : forall b', ssim d (sb_set_pubs s1 (mset a (PInactive b') (sb_pubs s1))) (sb_set_pubs s2 (mset a (PInactive b') (sb_pubs s1)))).
    { intros b'. apply ssim_pubs; [exact S|apply nodup_set, D1|]. intros k Gk. rewrite mget_set in Gk. destruct (eq_dec k a); [discriminate|exact Gk]. }
    destruct (bo_poll now b) as [b' [x| | |]].
    + cbv zeta in C1, C2. rewrite <- E3 in C2. destruct (jm_contains a (sb_tasks s1)); [injection C1 as <- <- <-; injection C2 as <- <- <-; split; [apply Sb|reflexivity]|].
      destruct (sb_connect a (sb_set_pubs s1 _)) as [t1 q1] eqn:X1. destruct (sb_connect a (sb_set_pubs s2 _)) as [t2 q2] eqn:X2. injection C1 as <- <- <-; injection C2 as <- <- <-. destruct (ssim_connect d a _ _ _ _ _ _ (Sb b') X1 X2) as (S1 & ->). auto.
    + injection C1 as <- <- <-; injection C2 as <- <- <-. split; [|reflexivity]. apply ssim_pubs; [exact S|apply nodup_del, D1|]. intros k Gk. rewrite mget_del in Gk. destruct (eq_dec k a); [discriminate|exact Gk].
    + injection C1 as <- <- <-; injection C2 as <- <- <-. split; [apply Sb|reflexivity].
    + injection C1 as <- <- <-; injection C2 as <- <- <-. auto.
  - injection C1 as <- <- <-; injection C2 as <- <- <-. auto.
Qed.

Lemma ssim_act d token ingress initial D ev s1 s2 s1' o1 s2' o2 : ssim d s1 s2 -> (forall e, ev <> YSess d e) -> ev <> YTake ->
  sb_act token ingress initial D s1 ev = (s1', o1) -> sb_act token ingress initial D s2 ev = (s2', o2) -> ~ overflowed o1 -> ~ overflowed o2 -> ssim d s1' s2' /\ others_see d o1 = others_see d o2.
Proof.
  intros S Ne Nt A1 A2 V1 V2. pose proof S as (E1 & E2 & E3 & E4 & E5 & E6 & E7 & E8 & D1 & D2). destruct ev as [c e|a now| |k r order|f| |]; cbn [sb_act] in A1, A2.
  - assert (Hc : c <> d) by (intros ->; exact (Ne e eq_refl)). unfold sb_session in *. rewrite <- (E8 c Hc) in A2. destruct (mget c (sb_conns s1)) as [x|]; [|injection A1 as <- <-; injection A2 as <- <-; auto].
    destruct (sc_alive x); [|injection A1 as <- <-; injection A2 as <- <-; auto]. destruct (ss_iter c e x) as [[x' o] r]. injection A1 as <- <-; injection A2 as <- <-. split; [now apply ssim_upd_other|reflexivity].
  - destruct (sb_entry ingress initial D a now s1) as [[t1 q1] p1] eqn:X1. destruct (sb_entry ingress initial D a now s2) as [[t2 q2] p2] eqn:X2. injection A1 as <- <-; injection A2 as <- <-. exact (ssim_entry d _ _ _ _ _ _ _ _ _ _ _ _ _ S X1 X2 V1 V2).
  - unfold sb_next_command in *. rewrite <- E1 in A2. destruct (sb_cmdq s1) as [|c q]; [injection A1 as <- <-; injection A2 as <- <-; auto|].
    destruct (sb_command initial c (sb_set_cmdq s1 q)) as [t1 q1] eqn:X1. destruct (sb_command initial c (sb_set_cmdq s2 q)) as [t2 q2] eqn:X2. injection A1 as <- <-; injection A2 as <- <-.
    destruct (ssim_command d initial c _ _ _ _ _ _ (ssim_cmdq d s1 s2 q S) X1 X2) as (S1 & O). split; [exact S1|]. change (UCmd c :: q1) with ([UCmd c] ++ q1). change (UCmd c :: q2) with ([UCmd c] ++ q2). now rewrite !os_app, O.
  - unfold sb_join in *. rewrite <- E3 in A2. destruct (nth_error (jm_tasks (sb_tasks s1)) k) as [a|]; [|injection A1 as <- <-; injection A2 as <- <-; auto].
    assert (St : forall b, ssim d (sb_set_tasks s1 (fst (jm_join k b (sb_tasks s1)))) (sb_set_tasks s2 (fst (jm_join k b (sb_tasks s1))))) by (intros b; now apply ssim_tasks).
    destruct r as [| |ok input]; [injection A1 as <- <-; injection A2 as <- <-; split; [apply St|reflexivity]..|]. destruct (auth_client token ok input) as [[[| | |] w] rest].
    + destruct (sb_connected a order (sb_set_tasks s1 _)) as [t1 q1] eqn:X1. destruct (sb_connected a order (sb_set_tasks s2 _)) as [t2 q2] eqn:X2. injection A1 as <- <-; injection A2 as <- <-. exact (ssim_connected d a order _ _ _ _ _ _ (St false) X1 X2).
    + injection A1 as <- <-; injection A2 as <- <-; split; [apply St|reflexivity].
    + injection A1 as <- <-; injection A2 as <- <-; split; [apply St|reflexivity].
    + injection A1 as <- <-; injection A2 as <- <-; auto.
  - unfold sb_call in *. rewrite <- E2 in A2. destruct (sb_dropped s1); [injection A1 as <- <-; injection A2 as <- <-; auto|]. destruct (api_command f) as [c|r]; [|injection A1 as <- <-; injection A2 as <- <-; auto].
    rewrite <- E1 in A2. destruct (_ <? _); injection A1 as <- <-; injection A2 as <- <-; [|auto]. split; [now apply ssim_cmdq|reflexivity].
  - congruence.
  - unfold sb_drop in *. rewrite <- E2 in A2. rewrite <- E1 in A2. destruct (sb_dropped s1); [injection A1 as <- <-; injection A2 as <- <-; auto|]. injection A1 as <- <-; injection A2 as <- <-. split; [|reflexivity].
    unfold ssim. cbn. ssplit; first [assumption|reflexivity|exact D1|exact D2].
Qed.

Definition synced (d : N) (ev : sb_event) : bool := match ev with YSess c _ => negb (c =? d) | YTake => false | _ => true end.
Lemma async_l d token ingress initial D ev s1 s2 s1' o1 : ssim d s1 s2 -> synced d ev = false -> sb_act token ingress initial D s1 ev = (s1', o1) -> ~ In (UCrash d) o1 -> ssim d s1' s2 /\ others_see d o1 = [].
Proof.
  intros S H A C. destruct ev as [c e|a now| |k r order|f| |]; try discriminate H; [|eapply ssim_take_l; eauto]. cbn in H. apply negb_false_iff, N.eqb_eq in H. subst c. eapply ssim_sess_l; eauto.
Qed.

Lemma ssim_runs d token ingress initial D : forall n evs1 evs2 s1 s2 s1' s2' L1 L2, (length evs1 + length evs2 <= n)%nat -> sub_apart_from d evs1 = sub_apart_from d evs2 -> ssim d s1 s2 ->
  sb_run token ingress initial D s1 evs1 = (s1', L1) -> sb_run token ingress initial D s2 evs2 = (s2', L2) ->
  ~ In (UCrash d) L1 -> ~ In (UCrash d) L2 -> ~ overflowed L1 -> ~ overflowed L2 -> others_see d L1 = others_see d L2.
Proof.
  assert (Fin : forall evs s t s' L, sub_apart_from d evs = [] -> ssim d s t -> sb_run token ingress initial D s evs = (s', L) -> ~ In (UCrash d) L -> others_see d L = []).
  { induction evs as [|ev evs IH]; intros s t s' L Ap S R C; cbn [sb_run] in R; [injection R as <- <-; reflexivity|]. destruct (sb_act token ingress initial D s ev) as [u o] eqn:A. destruct (sb_run token ingress initial D u evs) as [v p] eqn:R2. injection R as <- <-.
    unfold sub_apart_from in Ap. cbn [filter] in Ap. fold (sub_apart_from d evs) in Ap. change (match ev with YSess c _ => negb (c =? d) | YTake => false | _ => true end) with (synced d ev) in Ap. destruct (synced d ev) eqn:Sy; [discriminate|].
    destruct (async_l d _ _ _ _ ev s t u o S Sy A) as (S1 & O1); [intros H; apply C, in_or_app; auto|]. rewrite os_app, O1. apply (IH u t v p Ap S1 R2). intros H; apply C, in_or_app; auto. }
  induction n as [|n IH]; intros evs1 evs2 s1 s2 s1' s2' L1 L2 Le Ap S R1 R2 C1 C2 V1 V2.
  { destruct evs1; [|cbn in Le; lia]. destruct evs2; [|cbn in Le; lia]. injection R1 as <- <-. injection R2 as <- <-. reflexivity. }
  destruct evs1 as [|ev1 evs1].
  { injection R1 as <- <-. cbn. symmetry. apply (Fin evs2 s2 s1 s2' L2 (eq_sym Ap) (ssim_sym _ _ _ S) R2 C2). }
  destruct evs2 as [|ev2 evs2].
  { injection R2 as <- <-. cbn. apply (Fin (ev1 :: evs1) s1 s2 s1' L1 Ap S R1 C1). }
  destruct (synced d ev1) eqn:Y1.
  - destruct (synced d ev2) eqn:Y2.
    + cbn [sb_run] in R1, R2. destruct (sb_act token ingress initial D s1 ev1) as [u1 o1] eqn:A1. destruct (sb_run token ingress initial D u1 evs1) as [v1 p1] eqn:B1. injection R1 as <- <-.
      destruct (sb_act token ingress initial D s2 ev2) as [u2 o2] eqn:A2. destruct (sb_run token ingress initial D u2 evs2) as [v2 p2] eqn:B2. injection R2 as <- <-.
      unfold sub_apart_from in Ap. cbn [filter] in Ap. fold (sub_apart_from d evs1) in Ap. fold (sub_apart_from d evs2) in Ap.
      change (match ev1 with YSess c _ => negb (c =? d) | YTake => false | _ => true end) with (synced d ev1) in Ap. change (match ev2 with YSess c _ => negb (c =? d) | YTake => false | _ => true end) with (synced d ev2) in Ap. rewrite Y1, Y2 in Ap. injection Ap as <- Ap.
      assert (Q : forall a b, ~ overflowed (a ++ b) -> ~ overflowed a /\ ~ overflowed b). { intros a b H. split; intros (c & m & ad & p & Hi); apply H; exists c, m, ad, p; apply in_or_app; auto. }
      destruct (Q _ _ V1) as (V1a & V1b). destruct (Q _ _ V2) as (V2a & V2b).
      destruct (ssim_act d token ingress initial D ev1 s1 s2 u1 o1 u2 o2 S) as (S1 & O1); auto; [intros e ->; cbn in Y1; rewrite N.eqb_refl in Y1; discriminate|intros ->; discriminate|].
      rewrite !os_app, O1. f_equal. apply (IH evs1 evs2 u1 u2 v1 v2 p1 p2); auto; [cbn in Le; lia|intros H; apply C1, in_or_app; auto|intros H; apply C2, in_or_app; auto].
    + cbn [sb_run] in R2. destruct (sb_act token ingress initial D s2 ev2) as [u2 o2] eqn:A2. destruct (sb_run token ingress initial D u2 evs2) as [v2 p2] eqn:B2. injection R2 as <- <-.
      unfold sub_apart_from in Ap. cbn [filter] in Ap. change (match ev2 with YSess c _ => negb (c =? d) | YTake => false | _ => true end) with (synced d ev2) in Ap. rewrite Y2 in Ap.
      destruct (async_l d _ _ _ _ ev2 s2 s1 u2 o2 (ssim_sym _ _ _ S) Y2 A2) as (S1 & O1); [intros H; apply C2, in_or_app; auto|]. rewrite os_app, O1. cbn [app].
      apply (IH (ev1 :: evs1) evs2 s1 u2 s1' v2 L1 p2); auto; [cbn in *; lia|apply ssim_sym; exact S1|intros H; apply C2, in_or_app; auto|intros (c & m & ad & p & Hi); apply V2; exists c, m, ad, p; apply in_or_app; auto].
  - cbn [sb_run] in R1. destruct (sb_act token ingress initial D s1 ev1) as [u1 o1] eqn:A1. destruct (sb_run token ingress initial D u1 evs1) as [v1 p1] eqn:B1. injection R1 as <- <-.
    unfold sub_apart_from in Ap. cbn [filter] in Ap. change (match ev1 with YSess c _ => negb (c =? d) | YTake => false | _ => true end) with (synced d ev1) in Ap. rewrite Y1 in Ap.
    destruct (async_l d _ _ _ _ ev1 s1 s2 u1 o1 S Y1 A1) as (S1 & O1); [intros H; apply C1, in_or_app; auto|]. rewrite os_app, O1. cbn [app].
    apply (IH evs1 (ev2 :: evs2) u1 s2 v1 s2' p1 L2); auto; [cbn in *; lia|intros H; apply C1, in_or_app; auto|intros (c & m & ad & p & Hi); apply V1; exists c, m, ad, p; apply in_or_app; auto].
Qed.

Lemma app_os d c L : c <> d -> for_app c L = for_app c (others_see d L).
Proof.
  intros Hc. unfold for_app, others_see. induction L as [|x L IH]; [reflexivity|]. cbn [flat_map filter]. rewrite IH. destruct x; cbn [u_conn]; try reflexivity;
    match goal with |- context [negb (?k =? d)] => destruct (N.eqb_spec k d) as [->|]; cbn [negb flat_map]; try reflexivity | _ => reflexivity end.
  destruct r; try reflexivity. rewrite (proj2 (N.eqb_neq d c)) by congruence. reflexivity.
Qed.
Lemma wired_os d c L : c <> d -> SubSpec.wired c L = SubSpec.wired c (others_see d L).
Proof.
  intros Hc. unfold SubSpec.wired, others_see. induction L as [|x L IH]; [reflexivity|]. cbn [flat_map filter]. rewrite IH. destruct x; cbn [u_conn]; try reflexivity;
    match goal with |- context [negb (?k =? d)] => destruct (N.eqb_spec k d) as [->|]; cbn [negb flat_map]; try reflexivity | _ => reflexivity end.
  destruct (eq_dec d c); [congruence|reflexivity].
Qed.

(*@prop C84 (subscriber), what holds over whole histories: however differently the publisher behind connection [d] behaves in two histories - it floods the subscriber, sends garbage, takes no frames, goes away -, and whenever
    the application takes its messages, everything that concerns the other publishers is the same: the same frames to them, the same messages from them queued for the application in the same order, the same attempts and statistics.
    (Two exceptions, each refuted or noted elsewhere: the queue to the application must not overflow, and the session must not crash on an oversized topic.) *)
Lemma C84_subscriber_sessions_independent_partial_pf :
  forall token ingress initial D d evs1 evs2 s1 s2 L1 L2,
  sub_apart_from d evs1 = sub_apart_from d evs2 ->
  sb_run token ingress initial D sb_init evs1 = (s1, L1) -> sb_run token ingress initial D sb_init evs2 = (s2, L2) ->
  ~ overflowed L1 -> ~ overflowed L2 -> ~ In (UCrash d) L1 -> ~ In (UCrash d) L2 ->
  others_see d L1 = others_see d L2 /\
  forall c, c <> d -> for_app c L1 = for_app c L2 /\ SubSpec.wired c L1 = SubSpec.wired c L2.
Proof.
  intros token ingress initial D d evs1 evs2 s1 s2 L1 L2 Ap R1 R2 V1 V2 C1 C2.
  assert (S0 : ssim d sb_init sb_init). { unfold ssim. repeat (split; [reflexivity|]). split; (split; [constructor|]); intros a H; discriminate H. }
  pose proof (ssim_runs d token ingress initial D _ evs1 evs2 sb_init sb_init s1 s2 L1 L2 (le_n _) Ap S0 R1 R2 C1 C2 V1 V2) as E. split; [exact E|]. intros c Hc.
  rewrite (app_os d c L1), (app_os d c L2), (wired_os d c L1), (wired_os d c L2), E by exact Hc. auto.
Qed.

(*@example Two publishers.  In the first history the first one sends two messages and reads its subscriptions; in the second it sends nothing, accepts nothing and closes.  What the second one sees and says is the same. *)
Lemma C84_example_subscriber_pf :
  let other := AV4 2130706433 81 in
  let two := sx_open ++ [YApi (ApConnect true (Some other)); YCommand; YJoin 0 (JConn true []) []] in
  let evs1 := two ++ [YSess 0 (sx_env (sx_msg x00 [x01])); YSess 1 (sx_env PnPending); YSess 0 (sx_env (sx_msg x00 [x01])); YEntry sx_addr 5; YTake; YSess 1 (sx_env (sx_msg x00 [x02])); YEntry other 5] in
  let evs2 := two ++ [YSess 0 (mkYenv true PnEof [] 5); YSess 1 (sx_env PnPending); YEntry sx_addr 5; YSess 1 (sx_env (sx_msg x00 [x02])); YTake; YEntry other 5] in
  sub_apart_from 0 evs1 = sub_apart_from 0 evs2 /\ evs1 <> evs2 /\
  for_app 0 (snd (sx_run evs1)) <> for_app 0 (snd (sx_run evs2)) /\
  for_app 1 (snd (sx_run evs1)) = [(other, [x61], [x02])] /\ for_app 1 (snd (sx_run evs2)) = [(other, [x61], [x02])] /\
  ~ overflowed (snd (sx_run evs1)) /\ ~ overflowed (snd (sx_run evs2)) /\ ~ In (UCrash 0) (snd (sx_run evs1)) /\ ~ In (UCrash 0) (snd (sx_run evs2)).
Proof.
  cbv zeta. split; [vm_compute; reflexivity|]. split; [discriminate|]. split; [vm_compute; discriminate|]. split; [vm_compute; reflexivity|]. split; [vm_compute; reflexivity|].
  assert (K : forall L, existsb (fun x => match x with UDeliver _ _ _ _ TFull => true | _ => false end) L = false -> ~ overflowed L).
  { intros L H (c & m & a & p & Hi). assert (X : existsb (fun x => match x with UDeliver _ _ _ _ TFull => true | _ => false end) L = true) by (apply existsb_exists; eexists; split; [exact Hi|reflexivity]). congruence. }
  assert (K2 : forall L, existsb (fun x => match x with UCrash _ => true | _ => false end) L = false -> ~ In (UCrash 0) L).
  { intros L H Hi. assert (X : existsb (fun x => match x with UCrash _ => true | _ => false end) L = true) by (apply existsb_exists; eexists; split; [exact Hi|reflexivity]). congruence. }
  split; [apply K; vm_compute; reflexivity|]. split; [apply K; vm_compute; reflexivity|]. split; [apply K2; vm_compute; reflexivity|apply K2; vm_compute; reflexivity].
Qed.
