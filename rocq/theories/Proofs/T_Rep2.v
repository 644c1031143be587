(** Reply socket: C83 (reply side). *)
From Coq Require Import List NArith.
From Verif Require Import Model.Base Model.Map Model.Stats Model.Framed Model.WireReqRep Model.WireAuth Model.Compression Model.Handshake Model.ReqDriver Model.RepDriver
  Spec.Wire Spec.Stream Spec.AuthCuts Spec.ReqSpec Spec.RepSpec.
Import ListNotations.
Open Scope N_scope.
(*HEADEND*)
From Coq Require Import ZArith ZifyBool ZifyNat ZifyN.
From Verif Require Import Proofs.BaseP Proofs.MapP Proofs.RepDriverP Proofs.RepDriverP2 Proofs.RepDriverP3 Proofs.ReqRepNetP5.
Local Open Scope N_scope.

Lemma act_dropped max min auth co D s ev s' o : rp_act max min auth co D s ev = (s', o) -> rp_dropped s = true -> rp_chan s = [] ->
  rp_dropped s' = true /\ rp_chan s' = [] /\ (forall q, ~ In (RYield q) o) /\ (forall q, ~ In (RReceived q) o) /\
  (forall c a r m, In (RIncoming c a r m) o -> In (RLost r) o).
Proof.
  intros A Dr Ch. destruct ev as [a e|k i b|k r| | |rid x|rid|]; cbn [rp_act] in A.
  - unfold rp_peer in A. destruct (mget a (rp_peers s)) as [p|]; [|inversion A; subst; cbn; intuition].
    destruct (pr_open p); [|inversion A; subst; cbn; intuition].
    destruct (peer_iter min co e (rp_os s) (rp_next_rid s) p (rp_tx s) (rp_failed s)) as [[[[p' tx] fl] o1] r] eqn:It.
    assert (No : (forall q, ~ In (RYield q) o1) /\ (forall q, ~ In (RReceived q) o1) /\ forall c b r m, ~ In (RIncoming c b r m) o1).
    { clear - It. unfold peer_iter in It. set (p0 := if pr_flush p && p_flush_ok e then _ else p) in It. clearbody p0.
      destruct (if p_ready e then pr_egress p0 else []).
      - destruct (pick _ _ _) as [[u v]|]; [destruct (mget u (rp_os s)) as [[]|]; [|destruct (rep_outgoing _ _ _ _)|..]|]; try (destruct (p_next e));
          inversion It; subst; cbn; repeat split; intros; intuition discriminate.
      - destruct (p_send e); inversion It; subst; cbn; repeat split; intros; intuition discriminate. }
    destruct No as (N1 & N2 & N3).
    assert (Q : forall o', (o' = o1 \/ exists c, o' = o1 ++ [RGone c]) -> (forall q, ~ In (RYield q) o') /\ (forall q, ~ In (RReceived q) o') /\ (forall c b r m, In (RIncoming c b r m) o' -> In (RLost r) o')).
    { intros o' [-> |(c & ->)]; [split; [exact N1|]; split; [exact N2|]; intros c b u m H; destruct (N3 _ _ _ _ H)|].
      split; [intros q H; apply in_app_or in H; destruct H as [H|[H|[]]]; [destruct (N1 _ H)|discriminate]|]. split; [intros q H; apply in_app_or in H; destruct H as [H|[H|[]]]; [destruct (N2 _ H)|discriminate]|].
      intros c0 b u m H. apply in_app_or in H; destruct H as [H|[H|[]]]; [destruct (N3 _ _ _ _ H)|discriminate]. }
    destruct r; cbn zeta in A; [inversion A; subst; cbn [rp_dropped rp_chan rp_decr rp_with_active]; split; [exact Dr|split; [exact Ch|apply Q; eauto]]| |inversion A; subst; cbn [rp_dropped rp_chan rp_decr rp_with_active]; split; [exact Dr|split; [exact Ch|apply Q; eauto]]..].
    unfold rp_on_request in A. cbn [rp_dropped rp_next_rid rp_chan rp_active rp_conns rp_auths rp_peers rp_held rp_os rp_next_cid rp_tx rp_rx rp_failed] in A. rewrite Dr in A. cbn [orb] in A.
    destruct (try_decompress _ _ _); inversion A; subst; cbn [rp_dropped rp_chan]; (repeat split; auto; intros; rewrite ?in_app_iff;
      [intros [?|[?|[?|[]]]]; [eapply N1; eauto|discriminate|discriminate]
      |intros [?|[?|[?|[]]]]; [eapply N2; eauto|discriminate|discriminate]
      |match goal with H : In (RIncoming _ _ _ _) _ |- _ => apply in_app_or in H; destruct H as [H|[H|[H|[]]]]; [destruct (N3 _ _ _ _ H)|inversion H; subst; cbn; auto|discriminate] end]).
  - assert (Hi : forall s cid addr, rp_insert s cid addr = (fst (rp_insert s cid addr), snd (rp_insert s cid addr)) /\ rp_dropped (fst (rp_insert s cid addr)) = rp_dropped s /\ rp_chan (fst (rp_insert s cid addr)) = rp_chan s /\
       forall x, In x (snd (rp_insert s cid addr)) -> match x with ROpen _ _ | RReplaced _ => True | _ => False end).
    { intros s0 c0 a0. unfold rp_insert. cbn. repeat split. intros y [<-|H]; [exact I|]. destruct (mget a0 (rp_peers s0)) as [p|]; [|destruct H]. destruct (pr_open p); [|destruct H]. destruct H as [<-|[]]. exact I. }
    unfold rp_auth in A. destruct (nth_error (rp_auths s) k) as [[cid addr]|]; [|inversion A; subst; cbn; intuition]. destruct auth as [au|]; [|inversion A; subst; cbn; intuition].
    destruct (auth_server au b i) as [[[id| | |] w] rest]; cbn zeta in A.
    + match type of A with context [rp_insert ?z _ _] => remember z as s1 eqn:Es end. assert (Z1 : rp_dropped s1 = true) by (subst s1; exact Dr). assert (Z2 : rp_chan s1 = []) by (subst s1; exact Ch). clear Es. destruct (Hi s1 cid addr) as (_ & E1 & E2 & E3). destruct (rp_insert s1 cid addr) as [s2 o2]. cbn [fst snd] in *. inversion A; subst s2 o. rewrite E1, E2, Z1, Z2.
      repeat split; auto; intros; try intros [?|[?|?]]; try discriminate; try (match goal with H : In _ o2 |- _ => destruct (E3 _ H) end).
      match goal with H : In (RIncoming _ _ _ _) _ |- _ => destruct H as [H|[H|H]]; try discriminate; destruct (E3 _ H) end.
    + inversion A; subst; cbn; repeat split; auto; intros; intuition discriminate.
    + inversion A; subst; cbn; repeat split; auto; intros; intuition discriminate.
    + inversion A; subst; cbn; repeat split; auto; intros; intuition discriminate.
  - assert (Hi : forall s cid addr, rp_insert s cid addr = (fst (rp_insert s cid addr), snd (rp_insert s cid addr)) /\ rp_dropped (fst (rp_insert s cid addr)) = rp_dropped s /\ rp_chan (fst (rp_insert s cid addr)) = rp_chan s /\
       forall x, In x (snd (rp_insert s cid addr)) -> match x with ROpen _ _ | RReplaced _ => True | _ => False end).
    { intros s0 c0 a0. unfold rp_insert. cbn. repeat split. intros y [<-|H]; [exact I|]. destruct (mget a0 (rp_peers s0)) as [p|]; [|destruct H]. destruct (pr_open p); [|destruct H]. destruct H as [<-|[]]. exact I. }
    unfold rp_conn in A. destruct (nth_error (rp_conns s) k) as [cid|]; [|inversion A; subst; cbn; intuition]. cbn zeta in A.
    destruct r as [[addr|]|]; [|inversion A; subst; cbn; repeat split; auto; intros; intuition discriminate..].
    destruct auth; [inversion A; subst; cbn; intuition|].
    match type of A with context [rp_insert ?z _ _] => remember z as s1 eqn:Es end. assert (Z1 : rp_dropped s1 = true) by (subst s1; exact Dr). assert (Z2 : rp_chan s1 = []) by (subst s1; exact Ch). clear Es. destruct (Hi s1 cid addr) as (_ & E1 & E2 & E3). destruct (rp_insert s1 cid addr) as [s2 o2]. cbn [fst snd] in *. inversion A; subst s2 o. rewrite E1, E2, Z1, Z2.
    repeat split; auto; intros; try intros ?; try (match goal with H : In _ o2 |- _ => destruct (E3 _ H) end).
  - unfold rp_accept in A. destruct (match max with Some m => _ | None => _ end); inversion A; subst; cbn; repeat split; auto; intros; intuition discriminate.
  - rewrite Ch in A. inversion A; subst; cbn; intuition.
  - destruct (smem rid (rp_held s)); [destruct (os_receiver s rid)|]; inversion A; subst; cbn; repeat split; auto; intros; intuition discriminate.
  - destruct (smem rid (rp_held s)); inversion A; subst; cbn; repeat split; auto; intros; intuition discriminate.
  - rewrite Ch in A. inversion A; subst; cbn; repeat split; auto; intros; intuition discriminate.
Qed.

Lemma run_dropped max min auth co D evs : forall s s' o, rp_run max min auth co D s evs = (s', o) -> rp_dropped s = true -> rp_chan s = [] ->
  (forall q, ~ In (RYield q) o) /\ (forall q, ~ In (RReceived q) o) /\ (forall c a r m, In (RIncoming c a r m) o -> In (RLost r) o).
Proof.
  induction evs as [|ev evs IH]; intros s s' o R Dr Ch; cbn [rp_run] in R; [inversion R; subst; cbn; intuition|].
  destruct (rp_act max min auth co D s ev) as [s1 o1] eqn:A. destruct (rp_run max min auth co D s1 evs) as [s2 o2] eqn:R2. inversion R; subst.
  destruct (act_dropped _ _ _ _ _ _ _ _ _ A Dr Ch) as (D1 & C1 & Y1 & G1 & I1). destruct (IH _ _ _ R2 D1 C1) as (Y2 & G2 & I2).
  split; [intros q H; apply in_app_or in H; destruct H; [eapply Y1|eapply Y2]; eauto|]. split; [intros q H; apply in_app_or in H; destruct H; [eapply G1|eapply G2]; eauto|].
  intros c a r m H. apply in_or_app. apply in_app_or in H. destruct H; [left; eapply I1|right; eapply I2]; eauto.
Qed.

(*@prop C83 (reply): in every history [L1] in which the application dropped the socket and every continuation [L2] of it: no request
    reaches the application any more, every request read from a client is thrown away, and every response queued for a
    client answers a request that the application had received before - and still held - when it dropped the socket. *)
Lemma C83_reply_after_drop_pf :
  forall max min auth co D evs1 evs2 s1 s2 L1 L2,
  rp_run max min auth co D rp_init evs1 = (s1, L1) -> In RSocketDropped L1 ->
  rp_run max min auth co D s1 evs2 = (s2, L2) ->
  (forall q, ~ In (RYield q) L2 /\ ~ In (RReceived q) L2) /\
  (forall c a r m, In (RIncoming c a r m) L2 -> In (RLost r) L2) /\
  (forall c r m, In (RQueued c r m) L2 -> exists q, In (RReceived q) L1 /\ q_rid q = r).
Proof.
  intros max min auth co D evs1 evs2 s1 s2 L1 L2 R1 Dr R2.
  destruct (run_inv3 max min auth co D _ _ _ R1) as (_ & (_ & _ & _ & Y4 & Y5 & _) & _). apply Y5 in Dr. destruct (Y4 Dr) as [Ch _].
  destruct (run_dropped _ _ _ _ _ _ _ _ _ R2 Dr Ch) as (Y & G & I). split; [intros q; split; [apply Y|apply G]|]. split; [exact I|].
  intros c r m H. assert (R : rp_run max min auth co D rp_init (evs1 ++ evs2) = (s2, L1 ++ L2)) by (rewrite RepDriverP.run_app, R1, R2; reflexivity).
  destruct (run_inv2 max min auth co D _ _ _ R) as (_ & _ & _ & (F1 & _) & _). destruct (F1 c r m (in_or_app _ _ _ (or_intror H))) as (_ & _ & x & _ & X & _).
  destruct (run_gots max min auth co D _ _ _ R) as (_ & _ & _ & G4). destruct (G4 _ _ _ X) as (q & Hq & E). exists q. split; [|exact E].
  apply in_app_or in Hq. destruct Hq as [Hq|Hq]; [exact Hq|]. destruct (G _ Hq).
Qed.

(*@prop C83 (reply), refuted for the service as a whole: the driver never notices that the socket was dropped.  It goes on accepting
    connections, serving them and reading their requests, none of which is ever answered: the client is not told.  No
    step of the driver's poll function ends the task (its loop is left only with `Pending`), whatever the environment does. *)
Lemma C83_reply_serves_on_refuted_pf :
  (forall max s, fst (rp_accept max s) <> s \/ snd (rp_accept max s) = [RRefused]) /\
  (forall D, exists evs1 evs2 s1 s2 L1 L2, rp_run None 0 None None D rp_init evs1 = (s1, L1) /\ In RSocketDropped L1 /\
     rp_run None 0 None None D s1 evs2 = (s2, L2) /\
     In (RAccepted 1) L2 /\ In (ROpen 1 8) L2 /\ (exists r m, In (RIncoming 1 8 r m) L2 /\ In (RLost r) L2) /\ ended L2 = []).
Proof.
  split.
  - intros max s. unfold rp_accept. destruct (match max with Some m => _ | None => _ end); [right; reflexivity|left]. intros E. apply (f_equal rp_next_cid) in E. cbn in E. lia.
  - intros D. exists [VAccept; VConn 0 (Some (Some 7)); VDropSocket], [VAccept; VConn 0 (Some (Some 8)); VPeer 8 (mkPenv true true true (Some 0) (NxMsg (rr_new 5 x00 [x01])))].
    do 4 eexists. split; [vm_compute; reflexivity|]. split; [cbn; auto|]. split; [vm_compute; reflexivity|].
    split; [cbn; auto 20|]. split; [cbn; auto 20|]. split; [|reflexivity]. exists 0, (rr_new 5 x00 [x01]). split; cbn; auto 20.
Qed.

(*@example A request received before the socket is dropped is answered after it. *)
Lemma C83_reply_example_pf :
  let m := rr_new 5 x00 [x01] in let e n := mkPenv true true true (Some 0) n in
  forall D, let r := rp_run None 0 None None D rp_init [VAccept; VConn 0 (Some (Some 7)); VPeer 7 (e (NxMsg m)); VRecv; VPeer 7 (e (NxMsg m)); VDropSocket] in
  let q := rp_run None 0 None None D (fst r) [VRespond 0 [x09]; VPeer 7 (e NxPending); VPeer 7 (e (NxMsg m))] in
  In RSocketDropped (snd r) /\ In (RReceived (mkReq 7 0 [x01])) (snd r) /\
  snd q = [RResponded 0 [x09] true; RQueued 0 0 (rr_new 5 x00 [x09]); RHanded 0 (rr_new 5 x00 [x09]) true].
Proof. intros m e D. cbv zeta. split; [vm_compute; auto 20|]. split; [vm_compute; auto 20|]. vm_compute. reflexivity. Qed.
