(** C91: an unfinished handshake does not hold a place for ever. *)
From Coq Require Import List NArith.
From Verif Require Import Model.Base Model.Map Model.Stats Model.Backoff Model.Framed Model.WireReqRep Model.WirePubSub Model.WireAuth Model.Compression Model.Trie Model.Handshake Model.ReqDriver Model.RepDriver Model.PubDriver Model.JoinMap Model.SubDriver
  Spec.Wire Spec.Stream Spec.AuthSpec Spec.ReqSpec Spec.RepSpec Spec.PubSpec Spec.SubSpec Spec.HandSpec.
Import ListNotations.
Open Scope N_scope.
(*HEADEND*)
From Coq Require Import ZArith ZifyBool ZifyNat ZifyN Bool Lia Permutation.
From Verif Require Import Proofs.BaseP Proofs.MapP Proofs.FramedP Proofs.FramedP2 Proofs.AuthP Proofs.HandshakeP Proofs.HandshakeP2 Proofs.RepDriverP Proofs.RepDriverP5 Proofs.PubDriverP Proofs.PubDriverP3 Proofs.ReqDriverP Proofs.SubDriverP Proofs.SubDriverP3 Proofs.T_Req Proofs.T_Sub.
Local Open Scope N_scope.

(** ** The server's side of a stalled handshake *)
Definition little (b : bytes) : Prop := (length b <= 3)%nat /\ (forall x, hd_error b = Some x -> x = x01).
Lemma little_decode b : little b -> au_decode AUReceive b = DNone AUReceive b.
Proof. intros [L H]. destruct b as [|x b]; [reflexivity|]. rewrite (H x eq_refl). apply au_rcv_short. unfold blen. cbn [length] in *. lia. Qed.
Lemma little_app a b : little (a ++ b) -> little a.
Proof. intros [L H]. rewrite app_length in L. split; [lia|]. intros x E. apply H. destruct a; [discriminate E|exact E]. Qed.

Lemma stall_poll : forall input b rd, Forall delivery input -> little (b ++ received input) ->
  exists used rest, input = used ++ rest /\ framed_poll au_decode AUIo (mkFramed AUReceive b rd false false) input = (PPending, mkFramed AUReceive (b ++ received used) false false false, rest).
Proof.
  induction input as [|i input IH]; intros b rd Dl Li; rewrite framed_poll_unfold; unfold framed_front; cbn [fr_errored fr_readable fr_eof fr_codec fr_buf].
  - assert (Lb : little b) by (eapply little_app; exact Li). exists [], []. split; [reflexivity|]. change (received []) with (@nil byte). rewrite app_nil_r.
    destruct rd; [rewrite (little_decode b Lb)|]; reflexivity.
  - assert (Lb : little b) by (eapply little_app; exact Li). inversion Dl as [|? ? Di Dl']; subst.
    assert (E : (if rd then match au_decode AUReceive b with DMsg m s b0 => (Some (PItem m), mkFramed s b0 true false false) | DErr e s b0 => (Some (PFail e), mkFramed s b0 true false true)
                 | DNone s b0 => (None, mkFramed s b0 false false false) | DPanic => (Some (PPanic : polled au_msg au_err), mkFramed AUReceive b rd false false) end
                 else (None, mkFramed AUReceive b rd false false)) = (None, mkFramed AUReceive b false false false)).
    { destruct rd; [rewrite (little_decode b Lb)|]; reflexivity. }
    rewrite E. destruct i as [[|x c]| |]; try contradiction.
    + cbn [fr_codec fr_buf fr_errored]. change (received (IoData (x :: c) :: input)) with ((x :: c) ++ received input) in Li. rewrite app_assoc in Li.
      destruct (IH (b ++ x :: c) true Dl' Li) as (used & rest & E2 & P). exists (IoData (x :: c) :: used), rest. split; [now rewrite E2|]. rewrite P.
      change (received (IoData (x :: c) :: used)) with ((x :: c) ++ received used). now rewrite app_assoc.
    + exists [IoPending], input. split; [reflexivity|]. change (received [IoPending]) with (@nil byte). now rewrite app_nil_r.
Qed.

Lemma stall_next : forall n input b, Forall delivery input -> little (b ++ received input) ->
  exists f rest, au_next n (mkFramed AUReceive b false false false) input = (PPending, f, rest).
Proof.
  induction n as [|n IH]; intros input b Dl Li; destruct (stall_poll input b false Dl Li) as (used & rest & E & P); cbn [au_next]; rewrite P; destruct rest as [|i rest]; eauto.
  apply IH; rewrite E in *; [apply Forall_app in Dl; apply Dl|]. rewrite received_app, app_assoc in Li. exact Li.
Qed.

Lemma stall_server a ok input : client_stalls input -> exists rest, auth_server a ok input = (AuthRunning, [], rest).
Proof.
  intros (Dl & L & H). unfold auth_server. destruct (stall_next (length input) input [] Dl (conj L H)) as (f & rest & E).
  change (framed_new au_server) with (mkFramed AUReceive [] false false false). rewrite E. eauto.
Qed.
Lemma stall_client t input : server_stalls input -> exists w rest, auth_client (Some t) true input = (ClRunning, w, rest).
Proof.
  intros [Dl V]. destruct (auth_client_outcome t input StillOpen [] Dl (fun _ => eq_refl)) as (rest & E). cbn [ending_io app] in E. rewrite app_nil_r in E.
  unfold cl_says in E. rewrite V in E. eauto.
Qed.

(** ** Reply socket *)
Definition rfull (m : N) (s : rp) : Prop := rp_active s = m /\ rp_conns s = [] /\ rp_peers s = [] /\ rp_chan s = [] /\ rp_held s = [].

Lemma rep_arrive m min a co D : m < 2 ^ 64 -> forall addrs s s' L, rp_run (Some m) min (Some a) co D s (rep_arrivals addrs) = (s', L) ->
  rfull (rp_active s) s -> rp_active s + blen addrs <= m ->
  rfull (rp_active s + blen addrs) s' /\ blen (admitted L) = blen addrs /\ ended L = [] /\ (forall c ad, ~ In (ROpen c ad) L).
Proof.
  intros Lt. induction addrs as [|ad addrs IH]; intros s s' L R F Le.
  - inversion R; subst. change (blen (@nil N)) with 0. rewrite N.add_0_r. repeat split; try apply F; auto.
  - destruct F as (_ & C & P & Ch & H). rewrite blen_cons in Le.
    assert (A1 : rp_act (Some m) min (Some a) co D s VAccept = (mkRp (wrap64 (rp_active s + 1)) [rp_next_cid s] (rp_auths s) [] [] [] (rp_os s) (rp_next_rid s) (rp_next_cid s + 1) (rp_tx s) (rp_rx s) (rp_failed s) (rp_dropped s), [RAccepted (rp_next_cid s)])).
    { cbn [rp_act]. unfold rp_accept. destruct (N.leb_spec m (rp_active s)); [lia|]. rewrite C, P, Ch, H. reflexivity. }
    assert (A2 : wrap64 (rp_active s + 1) = rp_active s + 1) by (unfold wrap64; apply N.mod_small; lia). rewrite A2 in A1.
    change (rep_arrivals (ad :: addrs)) with (VAccept :: VConn 0 (Some (Some ad)) :: rep_arrivals addrs) in R. cbn [rp_run] in R. rewrite A1 in R. cbn [rp_act] in R. unfold rp_conn in R.
    cbn [rp_conns nth_error rp_active rp_auths rp_peers rp_chan rp_held rp_os rp_next_rid rp_next_cid rp_tx rp_rx rp_failed rp_dropped firstn skipn app] in R.
    match type of R with context [rp_run _ _ _ _ _ ?x (rep_arrivals addrs)] => specialize (IH x); destruct (rp_run (Some m) min (Some a) co D x (rep_arrivals addrs)) as [s2 L2] end.
    inversion R; subst s2 L. clear R. cbn [rp_active] in IH. destruct (IH s' L2 eq_refl) as (F2 & Ad & En & Op); [repeat split; reflexivity|lia|].
    rewrite blen_cons. replace (rp_active s + (1 + blen addrs)) with (rp_active s + 1 + blen addrs) by lia. split; [exact F2|].
    change (admitted (RAccepted (rp_next_cid s) :: L2)) with (rp_next_cid s :: admitted L2). rewrite blen_cons, Ad. split; [reflexivity|]. split; [exact En|].
    intros c x [X|X]; [discriminate X|exact (Op c x X)].
Qed.

Lemma rfull_act m min a co D s ev s' o : rfull m s -> (forall k i ok, ev = VAuth k i ok -> client_stalls i) -> rp_act (Some m) min (Some a) co D s ev = (s', o) ->
  rfull m s' /\ o = match ev with VAccept => [RRefused] | VDropSocket => [RSocketDropped] | _ => [] end.
Proof.
  intros (A & C & P & Ch & H) St Ac. destruct ev as [ad e|k i ok|k r| | |rid x|rid|]; cbn [rp_act] in Ac.
  - unfold rp_peer in Ac. rewrite P in Ac. cbn [mget] in Ac. inversion Ac; subst. repeat split; auto.
  - unfold rp_auth in Ac. destruct (nth_error (rp_auths s) k) as [[c ad]|]; [|inversion Ac; subst; repeat split; auto].
    destruct (stall_server a ok i (St k i ok eq_refl)) as (rest & E). rewrite E in Ac. inversion Ac; subst. repeat split; auto.
  - unfold rp_conn in Ac. rewrite C in Ac. replace (nth_error (@nil N) k) with (@None N) in Ac by (destruct k; reflexivity). inversion Ac; subst. repeat split; auto.
  - unfold rp_accept in Ac. rewrite A, N.leb_refl in Ac. inversion Ac; subst. repeat split; auto.
  - rewrite Ch in Ac. inversion Ac; subst. repeat split; auto.
  - rewrite H in Ac. inversion Ac; subst. repeat split; auto.
  - rewrite H in Ac. inversion Ac; subst. repeat split; auto.
  - rewrite Ch in Ac. inversion Ac; subst. unfold rfull, rp_set_app. cbn [rp_active rp_conns rp_peers rp_chan rp_held map]. repeat split; auto.
Qed.

(*@prop C91 is violated by the reply socket: as many clients as it may serve at once connect and then send nothing (or no more than three bytes).  Each of them keeps its place for ever: whatever happens
    afterwards - as long as they stay silent - every further client is turned away, nobody is served, and the server itself ends none of the silent connections (there is no time limit on a handshake). *)
Lemma C91_reply_silent_clients_refuted_pf :
  forall m min a co D addrs evs2 s log s2 log2,
  m < 2 ^ 64 -> blen addrs = m ->
  rp_run (Some m) min (Some a) co D rp_init (rep_arrivals addrs) = (s, log) ->
  rep_stalled evs2 -> rp_run (Some m) min (Some a) co D s evs2 = (s2, log2) ->
  blen (RepSpec.live log) = m /\ (forall c ad, ~ In (ROpen c ad) log) /\
  RepSpec.live (log ++ log2) = RepSpec.live log /\
  (forall x, In x log2 -> x = RRefused \/ x = RSocketDropped) /\
  length (filter (fun x => match x with RRefused => true | _ => false end) log2) = length (filter (fun ev => match ev with VAccept => true | _ => false end) evs2).
Proof.
  intros m min a co D addrs evs2 s L s2 L2 Lt Len R1 St R2.
  destruct (rep_arrive m min a co D Lt addrs rp_init s L R1) as (F & Ad & En & Op); [repeat split; reflexivity|cbn; lia|]. change (rp_active rp_init + blen addrs) with (blen addrs) in F. rewrite Len in *.
  assert (X : (forall x, In x L2 -> x = RRefused \/ x = RSocketDropped) /\
    length (filter (fun x => match x with RRefused => true | _ => false end) L2) = length (filter (fun ev => match ev with VAccept => true | _ => false end) evs2)).
  { clear R1 Ad En Op. revert s F St s2 L2 R2. induction evs2 as [|ev evs2 IH]; intros s F St s2 L2 R2; [inversion R2; subst; split; [intros ? []|reflexivity]|].
    cbn [rp_run] in R2. destruct (rp_act (Some m) min (Some a) co D s ev) as [s1 o1] eqn:Ac. destruct (rp_run (Some m) min (Some a) co D s1 evs2) as [s3 o3] eqn:R3. inversion R2; subst s3 L2.
    assert (Q : forall k i ok, ev = VAuth k i ok -> client_stalls i) by (intros k i ok ->; eapply St; left; reflexivity).
    destruct (rfull_act m min a co D s ev s1 o1 F Q Ac) as (F1 & ->). destruct (IH s1 F1 (fun k i ok H => St k i ok (or_intror H)) s2 o3 R3) as (I1 & I2).
    split; [intros x Hx; apply in_app_or in Hx; destruct Hx as [Hx|Hx]; [|auto]; destruct ev; cbn in Hx; try contradiction; destruct Hx as [<-|[]]; auto|].
    rewrite filter_app, app_length, I2. destruct ev; reflexivity. }
  destruct X as (X1 & X2).
  assert (Li : RepSpec.live L = admitted L). { unfold RepSpec.live. rewrite En. clear. induction (admitted L); [reflexivity|]. cbn. now f_equal. }
  assert (Z : admitted L2 = [] /\ ended L2 = []). { clear - X1. induction L2 as [|x L2 IH]; [split; reflexivity|]. destruct (IH (fun y H => X1 y (or_intror H))) as (I1 & I2). destruct (X1 x (or_introl eq_refl)) as [-> | ->]; split; assumption. }
  split; [rewrite Li; exact Ad|]. split; [exact Op|]. split; [|split; assumption].
  unfold RepSpec.live. rewrite admitted_app, ended_app. destruct Z as (-> & ->). now rewrite !app_nil_r.
Qed.

(*@prop C91 (reply socket, what holds): a handshake that fails - the client is refused, closes its connection or sends garbage - gives its place back at once, as does a served client that leaves: right afterwards a new client is admitted. *)
Lemma C91_reply_place_given_back_partial_pf :
  forall m min auth co D evs s log ev s1 o1 c,
  m < 2 ^ 64 -> rp_run (Some m) min auth co D rp_init evs = (s, log) ->
  rp_act (Some m) min auth co D s ev = (s1, o1) -> In (RGone c) o1 ->
  exists c', snd (rp_act (Some m) min auth co D s1 VAccept) = [RAccepted c'].
Proof.
  intros m min auth co D evs s L ev s1 o1 c Lt R Ac G.
  assert (R1 : rp_run (Some m) min auth co D rp_init (evs ++ [ev]) = (s1, L ++ o1)).
  { rewrite RepDriverP.run_app, R. cbn [rp_run]. rewrite Ac. now rewrite app_nil_r. }
  destruct (run_cap (Some m) min auth co D m _ _ _ eq_refl Lt R) as (I & C). destruct (run_cap (Some m) min auth co D m _ _ _ eq_refl Lt R1) as (I1 & C1).
  assert (Ad : admitted o1 = []).
  { destruct ev as [ad e|k i ok|k r| | |rid x|rid|]; cbn [rp_act] in Ac.
    - unfold rp_peer in Ac. destruct (mget ad (rp_peers s)) as [p|]; [|inversion Ac; subst; destruct G]. destruct (pr_open p); [|inversion Ac; subst; destruct G].
      destruct (peer_iter min co e (rp_os s) (rp_next_rid s) p (rp_tx s) (rp_failed s)) as [[[[p' tx] fl] o] r] eqn:Pi.
      assert (Ao : admitted o = []).
      { unfold peer_iter in Pi. cbv zeta in Pi. destruct (if p_ready e then _ else _); [|destruct (p_send e); inversion Pi; reflexivity].
        destruct (pick _ _ _) as [[r0 id]|]; [destruct (mget r0 (rp_os s)) as [[| |]|]; try (destruct (p_next e); inversion Pi; reflexivity); destruct (rep_outgoing _ _ _ _); inversion Pi; reflexivity|].
        destruct (p_next e); inversion Pi; reflexivity. }
      destruct r as [|mm| | |].
      + inversion Ac; subst. exact Ao.
      + unfold rp_on_request in Ac. cbv zeta in Ac. destruct (try_decompress _ _ _); [destruct (_ || _)%bool|]; inversion Ac; subst; rewrite admitted_app, Ao; reflexivity.
      + inversion Ac; subst; exact Ao.
      + inversion Ac; subst. rewrite admitted_app, Ao. reflexivity.
      + inversion Ac; subst. exact Ao.
    - unfold rp_auth in Ac. destruct (nth_error (rp_auths s) k) as [[c0 ad]|]; [|inversion Ac; subst; destruct G]. destruct auth as [a|]; [|inversion Ac; subst; destruct G].
      destruct (auth_server a ok i) as [[[id| | |] w] rest]; unfold rp_insert in Ac; inversion Ac; subst; try reflexivity. cbn in *. destruct (mget ad _) as [p|]; [destruct (pr_open p)|]; reflexivity.
    - unfold rp_conn in Ac. destruct (nth_error (rp_conns s) k) as [c0|]; [|inversion Ac; subst; destruct G]. destruct r as [[ad|]|]; [destruct auth; unfold rp_insert in Ac|..]; inversion Ac; subst; try reflexivity.
      cbn in *. destruct (mget ad _) as [p|]; [destruct (pr_open p)|]; reflexivity.
    - unfold rp_accept in Ac. destruct (_ <=? _); inversion Ac; subst; destruct G as [G|[]]; discriminate G.
    - destruct (rp_chan s); inversion Ac; subst; [destruct G|reflexivity].
    - destruct (smem rid _); [destruct (os_receiver s rid)|]; inversion Ac; subst; reflexivity.
    - destruct (smem rid _); inversion Ac; subst; reflexivity.
    - inversion Ac; subst. cbn. generalize (rp_chan s). clear. intros l; induction l; [reflexivity|cbn; assumption]. }
  assert (Gn : 1 <= blen (gone o1)).
  { apply in_split in G. destruct G as (p & q & ->). rewrite gone_app, blen_app. change (gone (RGone c :: q)) with (c :: gone q). rewrite blen_cons. lia. }
  pose proof (balance _ _ I1) as B. unfold cap in C. rewrite gone_app, admitted_app, Ad, app_nil_r, !blen_app in B.
  destruct I1 as (_ & _ & _ & _ & A1). rewrite blen_app in A1 || rewrite leaked_app, blen_app in A1.
  assert (Al : rp_active s1 < m). { rewrite A1. unfold wrap64. rewrite ?leaked_app, ?blen_app in *. rewrite N.mod_small; lia. }
  cbn [rp_act]. unfold rp_accept. destruct (N.leb_spec m (rp_active s1)); [lia|]. cbn [snd]. eauto.
Qed.

(** ** Publisher *)
Definition qfull (m : N) (s : pb) : Prop := pb_active s = m /\ pb_conns s = [] /\ pb_sess s = [].

Lemma pub_arrive m buf min a co : m < 2 ^ 64 -> forall n s s' L, pb_run (Some m) buf min (Some a) co s (pub_arrivals n) = (s', L) ->
  qfull (pb_active s) s -> pb_active s + N.of_nat n <= m ->
  qfull (pb_active s + N.of_nat n) s' /\ blen (sub_admitted L) = N.of_nat n /\ sub_ended L = [] /\ (forall c, ~ In (QOpen c) L).
Proof.
  intros Lt. induction n as [|n IH]; intros s s' L R F Le.
  - inversion R; subst. change (N.of_nat 0) with 0. rewrite N.add_0_r. repeat split; try apply F; auto.
  - destruct F as (_ & C & P).
    assert (A1 : pb_act (Some m) buf min (Some a) co s WAccept = (mkPb (wrap64 (pb_active s + 1)) [pb_next_cid s] (pb_auths s) [] (pb_hist s) (pb_closed s) (pb_next_cid s + 1) (pb_tx s), [QAccepted (pb_next_cid s)])).
    { cbn [pb_act]. unfold pb_accept. destruct (N.leb_spec m (pb_active s)); [lia|]. rewrite C, P. reflexivity. }
    assert (A2 : wrap64 (pb_active s + 1) = pb_active s + 1) by (unfold wrap64; apply N.mod_small; lia). rewrite A2 in A1.
    change (pub_arrivals (S n)) with (WAccept :: WConn 0 (Some true) :: pub_arrivals n) in R. cbn [pb_run] in R. rewrite A1 in R. cbn [pb_act] in R. unfold pb_conn in R.
    cbn [pb_conns nth_error pb_active pb_auths pb_sess pb_hist pb_closed pb_next_cid pb_tx firstn skipn app] in R.
    match type of R with context [pb_run _ _ _ _ _ ?x (pub_arrivals n)] => specialize (IH x); destruct (pb_run (Some m) buf min (Some a) co x (pub_arrivals n)) as [s2 L2] end.
    inversion R; subst s2 L. clear R. cbn [pb_active] in IH. destruct (IH s' L2 eq_refl) as (F2 & Ad & En & Op); [repeat split; reflexivity|lia|].
    replace (pb_active s + N.of_nat (S n)) with (pb_active s + 1 + N.of_nat n) by lia. split; [exact F2|].
    change (sub_admitted (QAccepted (pb_next_cid s) :: L2)) with (pb_next_cid s :: sub_admitted L2). rewrite blen_cons, Ad. split; [lia|]. split; [exact En|].
    intros c [X|X]; [discriminate X|exact (Op c X)].
Qed.

Lemma qfull_act m buf min a co s ev s' o : qfull m s -> (forall k i ok, ev = WAuth k i ok -> client_stalls i) -> pb_act (Some m) buf min (Some a) co s ev = (s', o) ->
  qfull m s' /\ match ev with WAccept => o = [QRefused] | _ => forall x, In x o -> match x with QPublished _ | QPublishErr | QClosed => True | _ => False end end.
Proof.
  intros (A & C & P) St Ac. destruct ev as [c e|k i ok|k r| |t p|t p|]; cbn [pb_act] in Ac.
  - unfold pb_session in Ac. rewrite P in Ac. cbn [mget] in Ac. inversion Ac; subst. split; [repeat split; auto|intros ? []].
  - unfold pb_auth in Ac. destruct (nth_error (pb_auths s) k) as [c|]; [|inversion Ac; subst; split; [repeat split; auto|intros ? []]].
    destruct (stall_server a ok i (St k i ok eq_refl)) as (rest & E). rewrite E in Ac. inversion Ac; subst. split; [repeat split; auto|intros ? []].
  - unfold pb_conn in Ac. rewrite C in Ac. replace (nth_error (@nil N) k) with (@None N) in Ac by (destruct k; reflexivity). inversion Ac; subst. split; [repeat split; auto|intros ? []].
  - unfold pb_accept in Ac. rewrite A, N.leb_refl in Ac. inversion Ac; subst. repeat split; auto.
  - unfold pb_send in Ac. destruct (publish_outgoing min co p); [destruct (pb_closed s)|]; inversion Ac; subst; (split; [repeat split; auto|]); intros x Hx; cbn in Hx; try contradiction; destruct Hx as [<-|[]]; exact I.
  - unfold pb_send in Ac. destruct (try_publish_outgoing min co p); [destruct (pb_closed s)|]; inversion Ac; subst; (split; [repeat split; auto|]); intros x Hx; cbn in Hx; try contradiction; destruct Hx as [<-|[]]; exact I.
  - destruct (pb_closed s); inversion Ac; subst; (split; [repeat split; auto|]); intros x Hx; cbn in Hx; try contradiction; destruct Hx as [<-|[]]; exact I.
Qed.

(*@prop C91 is violated by the publisher: as many subscribers as it may serve at once connect and then send nothing (or no more than three bytes).  As long as they stay silent every further subscriber is
    turned away, nobody gets a session, and whatever is published reaches nobody. *)
Lemma C91_publisher_silent_subscribers_refuted_pf :
  forall n buf min a co evs2 s log s2 log2,
  N.of_nat n < 2 ^ 64 ->
  pb_run (Some (N.of_nat n)) buf min (Some a) co pb_init (pub_arrivals n) = (s, log) ->
  pub_stalled evs2 -> pb_run (Some (N.of_nat n)) buf min (Some a) co s evs2 = (s2, log2) ->
  length (sub_live log) = n /\ (forall c, ~ In (QOpen c) log) /\
  sub_live (log ++ log2) = sub_live log /\
  (forall x, In x log2 -> match x with QRefused | QPublished _ | QPublishErr | QClosed => True | _ => False end) /\
  length (filter (fun x => match x with QRefused => true | _ => false end) log2) = length (filter (fun ev => match ev with WAccept => true | _ => false end) evs2).
Proof.
  intros n buf min a co evs2 s L s2 L2 Lt R1 St R2. set (m := N.of_nat n) in *.
  destruct (pub_arrive m buf min a co Lt n pb_init s L R1) as (F & Ad & En & Op); [repeat split; reflexivity|cbn; lia|]. change (pb_active pb_init + N.of_nat n) with m in F.
  assert (X : (forall x, In x L2 -> match x with QRefused | QPublished _ | QPublishErr | QClosed => True | _ => False end) /\
    length (filter (fun x => match x with QRefused => true | _ => false end) L2) = length (filter (fun ev => match ev with WAccept => true | _ => false end) evs2)).
  { clear R1 Ad En Op. revert s F St s2 L2 R2. induction evs2 as [|ev evs2 IH]; intros s F St s2 L2 R2; [inversion R2; subst; split; [intros ? []|reflexivity]|].
    cbn [pb_run] in R2. destruct (pb_act (Some m) buf min (Some a) co s ev) as [s1 o1] eqn:Ac. destruct (pb_run (Some m) buf min (Some a) co s1 evs2) as [s3 o3] eqn:R3. inversion R2; subst s3 L2.
    assert (Q : forall k i ok, ev = WAuth k i ok -> client_stalls i) by (intros k i ok ->; eapply St; left; reflexivity).
    destruct (qfull_act m buf min a co s ev s1 o1 F Q Ac) as (F1 & O1). destruct (IH s1 F1 (fun k i ok H => St k i ok (or_intror H)) s2 o3 R3) as (I1 & I2).
    assert (O2 : (forall x, In x o1 -> match x with QRefused | QPublished _ | QPublishErr | QClosed => True | _ => False end) /\
      length (filter (fun x => match x with QRefused => true | _ => false end) o1) = length (filter (fun ev => match ev with WAccept => true | _ => false end) [ev])).
    { assert (Y : (forall x, In x o1 -> match x with QPublished _ | QPublishErr | QClosed => True | _ => False end) ->
        (forall x, In x o1 -> match x with QRefused | QPublished _ | QPublishErr | QClosed => True | _ => False end) /\ length (filter (fun x => match x with QRefused => true | _ => false end) o1) = 0%nat).
      { clear. intros H. split; [intros x Hx; specialize (H x Hx); destruct x; auto|]. induction o1 as [|x o IH]; [reflexivity|]. cbn [filter]. pose proof (H x (or_introl eq_refl)) as Hx. specialize (IH (fun y Hy => H y (or_intror Hy))). destruct x; try contradiction; exact IH. }
      destruct ev; try exact (Y O1). subst o1. split; [intros x [<-|[]]; exact I|reflexivity]. }
    destruct O2 as (O2 & O3). split; [intros x Hx; apply in_app_or in Hx; destruct Hx as [Hx|Hx]; [exact (O2 x Hx)|exact (I1 x Hx)]|].
    rewrite filter_app, app_length, I2, O3. change (ev :: evs2) with ([ev] ++ evs2). now rewrite (filter_app _ [ev] evs2), app_length. }
  destruct X as (X1 & X2).
  assert (Li : sub_live L = sub_admitted L). { unfold sub_live. rewrite En. clear. induction (sub_admitted L); [reflexivity|]. cbn. now f_equal. }
  assert (Z : sub_admitted L2 = [] /\ sub_ended L2 = []). { clear - X1. induction L2 as [|x L2 IH]; [split; reflexivity|]. destruct (IH (fun y H => X1 y (or_intror H))) as (I1 & I2). pose proof (X1 x (or_introl eq_refl)) as H. destruct x; try contradiction; split; assumption. }
  split; [rewrite Li; unfold blen in Ad; lia|]. split; [exact Op|]. split; [|split; assumption].
  unfold sub_live, sub_admitted, sub_ended in *. rewrite !flat_map_app. destruct Z as (-> & ->). now rewrite !app_nil_r.
Qed.

(*@prop C91 (publisher, what holds): a handshake that fails gives its place back at once, as does a session that ends: right afterwards a new subscriber is admitted. *)
Lemma C91_publisher_place_given_back_partial_pf :
  forall m buf min auth co evs s log ev s1 o1 c,
  m < 2 ^ 64 -> pb_run (Some m) buf min auth co pb_init evs = (s, log) ->
  pb_act (Some m) buf min auth co s ev = (s1, o1) -> In (QGone c) o1 \/ In (QCrashed c) o1 ->
  exists c', snd (pb_act (Some m) buf min auth co s1 WAccept) = [QAccepted c'].
Proof.
  intros m buf min auth co evs s L ev s1 o1 c Lt R Ac G.
  destruct (run_qcap (Some m) buf auth min co m _ _ _ eq_refl Lt R) as (I & C).
  assert (R1 : pb_run (Some m) buf min auth co pb_init (evs ++ [ev]) = (s1, L ++ o1)).
  { rewrite PubDriverP.run_app, R. cbn [pb_run]. rewrite Ac. now rewrite app_nil_r. }
  destruct (run_qcap (Some m) buf auth min co m _ _ _ eq_refl Lt R1) as (I1 & C1).
  assert (K : sub_admitted o1 = [] /\ sub_leaked o1 = []).
  { destruct ev as [cc e|k i ok|k r| |t p|t p|]; cbn [pb_act] in Ac.
    - unfold pb_session in Ac. destruct (mget cc (pb_sess s)) as [x|]; [|inversion Ac; subst; split; reflexivity].
      destruct (sn_iter buf cc e (pb_hist s) (pb_closed s) x) as [[[x' d] o] r] eqn:Si.
      assert (Ao : sub_admitted o = [] /\ sub_leaked o = []).
      { unfold sn_iter in Si. cbv zeta in Si.
        repeat (match type of Si with (match ?b with _ => _ end) = _ => destruct b | (if ?b then _ else _) = _ => destruct b end; try (inversion Si; subst; split; reflexivity)). }
      destruct Ao as (A1 & A2). unfold sub_admitted, sub_leaked in *. destruct r; inversion Ac; subst; rewrite ?flat_map_app, ?A1, ?A2; split; reflexivity.
    - unfold pb_auth in Ac. destruct (nth_error (pb_auths s) k) as [c0|]; [|inversion Ac; subst; split; reflexivity]. destruct auth as [a|]; [|inversion Ac; subst; split; reflexivity].
      destruct (auth_server a ok i) as [[[id| | |] w] rest]; unfold pb_open in Ac; inversion Ac; subst; try (split; reflexivity). destruct G as [G|G]; destruct G as [G|[]]; discriminate G.
    - unfold pb_conn in Ac. destruct (nth_error (pb_conns s) k) as [c0|]; [|inversion Ac; subst; split; reflexivity]. destruct r as [[|]|]; [destruct auth; unfold pb_open in Ac|..]; inversion Ac; subst; split; reflexivity.
    - unfold pb_accept in Ac. destruct (_ <=? _); inversion Ac; subst; destruct G as [G|G]; destruct G as [G|[]]; discriminate G.
    - unfold pb_send in Ac. destruct (publish_outgoing min co p); [destruct (pb_closed s)|]; inversion Ac; subst; split; reflexivity.
    - unfold pb_send in Ac. destruct (try_publish_outgoing min co p); [destruct (pb_closed s)|]; inversion Ac; subst; split; reflexivity.
    - destruct (pb_closed s); inversion Ac; subst; split; reflexivity. }
  destruct K as (K1 & K2).
  assert (Gn : 1 <= blen (sub_ended o1)).
  { destruct G as [G|G]; apply in_split in G; destruct G as (p & q & ->); unfold sub_ended; rewrite flat_map_app, blen_app; cbn [flat_map app]; rewrite blen_cons; lia. }
  pose proof (PubDriverP3.blen_perm _ _ (i1_perm _ _ I)) as B. pose proof (PubDriverP3.blen_perm _ _ (i1_perm _ _ I1)) as B1. unfold qcap in *. pose proof (i1_active _ _ I1) as A1.
  unfold sub_admitted, sub_ended, sub_leaked in *. rewrite !flat_map_app in *. rewrite K1, ?K2, ?app_nil_r in *. rewrite !blen_app in *.
  assert (Al : pb_active s1 < m). { rewrite A1. unfold wrap64. rewrite N.mod_small; lia. }
  cbn [pb_act]. unfold pb_accept. destruct (N.leb_spec m (pb_active s1)); [lia|]. cbn [snd]. eauto.
Qed.

(** ** Request socket *)
Definition upd_open (b : bool) (l : list out) : bool :=
  fold_left (fun b x => match x with StartConnect => true | Connected | ConnectFailed => false | _ => b end) l b.
Definition no_attempt (x : out) : Prop := match x with StartConnect | Connected | ConnectFailed => False | _ => True end.
Lemma upd_same b : forall l, Forall no_attempt l -> upd_open b l = b.
Proof. induction l as [|x l IH]; [reflexivity|]. intros H. inversion H; subst. change (upd_open b (x :: l)) with (upd_open (match x with StartConnect => true | Connected | ConnectFailed => false | _ => b end) l). destruct x; try contradiction; auto. Qed.
Lemma upd_app b l1 l2 : upd_open b (l1 ++ l2) = upd_open (upd_open b l1) l2.
Proof. apply fold_left_app. Qed.
Lemma finish_plain s : Forall (fun x => exists c, x = Resolve c OClosed) (snd (rd_finish s)).
Proof. cbn [rd_finish snd]. apply Forall_app. split; apply Forall_forall; intros x Hx; apply in_map_iff in Hx; destruct Hx as (y & <- & _); eauto. Qed.
Lemma finish_no s : Forall no_attempt (snd (rd_finish s)).
Proof. eapply Forall_impl; [|apply finish_plain]. intros x (c & ->). exact I. Qed.
Lemma ticks_no o now : forall n s, Forall no_attempt (snd (rd_ticks o n now s)).
Proof.
  induction n as [|n IH]; intros s; cbn [rd_ticks]; [constructor|]. unfold rd_check_timeouts.
  assert (K : forall ids p, Forall no_attempt (snd (remove_timed_out ids p))).
  { clear. induction ids as [|i ids IH]; intros p; cbn [remove_timed_out]; [constructor|]. destruct (mget i p) as [[st c]|]; [|apply IH]. specialize (IH (mdel i p)). destruct (remove_timed_out ids (mdel i p)). constructor; [exact I|exact IH]. }
  specialize (K (timed_out_ids o now (rd_pending s)) (rd_pending s)). destruct (remove_timed_out _ _) as [p' os]. cbn [snd] in K.
  match goal with |- context [rd_ticks o n now ?x] => specialize (IH x); destruct (rd_ticks o n now x) as [s2 o2] end. cbn [snd] in *. constructor; [exact I|]. apply Forall_app. auto.
Qed.

Lemma flush_task o e s : rd_task (rd_do_flush o e s) = rd_task s /\ rd_done (rd_do_flush o e s) = rd_done s /\ rd_conn (rd_do_flush o e s) = rd_conn s.
Proof. unfold rd_do_flush. destruct (rd_flush s); [|auto]. destruct (match ro_flush_interval o with Some _ => _ | None => _ end); [|auto]. destruct (rd_conn s) eqn:Ec; [destruct (e_flush_ok e)|]; cbn; auto. Qed.

Lemma open_step o co D s ev s' os : rd_step o co D s ev = (s', os) -> rd_done s = false -> rd_done s' = false -> upd_open (rd_task s) os = rd_task s'.
Proof.
  intros St Dn. destruct ev as [c p| |e]; cbn [rd_step] in St.
  - rewrite Dn in St. destruct (rd_dropped s); inversion St; subst; reflexivity.
  - inversion St; subst. reflexivity.
  - rewrite Dn in St. destruct (rd_iter o co D e s) as [[s1 o1] c] eqn:It. inversion St; subst s1 o1. clear St. unfold rd_iter in It.
    destruct (flush_task o e s) as (F1 & F2 & F3). set (s0 := rd_do_flush o e s) in *. clearbody s0.
    destruct (rd_do_task e s0) as [s2 o2] eqn:Tk.
    assert (T : upd_open (rd_task s) o2 = rd_task s2 /\ rd_done s2 = false).
    { unfold rd_do_task in Tk. rewrite F1 in Tk. destruct (rd_task s) eqn:Ht; [destruct (e_task e) as [[|]|]|]; inversion Tk; subst; cbn; split; congruence. }
    destruct T as (T & D2). destruct (rd_conn s2) as [|b] eqn:Cn.
    + destruct (rd_do_active o co D e s2) as [[s3 o3] c3] eqn:A. inversion It; subst s' os c. clear It. rewrite upd_app, T. unfold rd_do_active in A. intros Dn'.
      destruct (e_next e) as [m| | |].
      * unfold rd_on_message in A. destruct (mget _ _) as [[st cc]|]; [destruct (try_decompress _ _ _)|]; inversion A; subst; reflexivity.
      * inversion A; subst; reflexivity.
      * pose proof (finish_no s2) as Fn. inversion A; subst. discriminate Dn'.
      * destruct (if e_ready e then rd_egress s2 else []) as [|m q].
        -- pose proof (ticks_no o (e_now e) (e_ticks e) s2) as Tn.
           assert (Kt : rd_task (fst (rd_ticks o (e_ticks e) (e_now e) s2)) = rd_task s2).
           { clear. generalize (e_ticks e) as n, s2 as s. induction n as [|n IH]; intros s; cbn [rd_ticks]; [reflexivity|]. unfold rd_check_timeouts. destruct (remove_timed_out _ _) as [p' os']. match goal with |- context [rd_ticks o n (e_now e) ?x] => specialize (IH x); destruct (rd_ticks o n (e_now e) x) as [sx ox] end. exact IH. }
           destruct (rd_ticks o (e_ticks e) (e_now e) s2) as [s4 o4]. cbn [fst snd] in *. destruct (rd_do_command o co e s4) as [[s5 o5] c5] eqn:Cm. inversion A; subst s3 o3 c3. rewrite upd_app, (upd_same _ o4 Tn).
           unfold rd_do_command in Cm. destruct (e_recv e); [|inversion Cm; subst; cbn; congruence]. destruct (rd_cmds s4) as [|[x p] rest].
           ++ destruct (rd_dropped s4); [|inversion Cm; subst; cbn; congruence]. destruct (e_close e); [|inversion Cm; subst; cbn; congruence]. inversion Cm; subst. discriminate Dn'.
           ++ unfold rd_on_command in Cm. inversion Cm; subst. cbn [rd_task]. rewrite <- Kt. destruct (mget _ _) as [[? ?]|]; reflexivity.
        -- destruct (e_send e); inversion A; subst; reflexivity.
    + destruct (rd_do_inactive e b s2) as [[s3 o3] c3] eqn:A. inversion It; subst s' os c. clear It. rewrite upd_app, T. unfold rd_do_inactive in A. intros Dn'.
      destruct (bo_poll (e_now e) b) as [b' [d| | |]].
      * destruct (rd_task s2) eqn:Ht; inversion A; subst; reflexivity.
      * inversion A; subst. discriminate Dn'.
      * inversion A; subst. reflexivity.
      * inversion A; subst. discriminate Dn'.
Qed.

Lemma done_stays o co D evs : forall s s' L, rd_done s = true -> rd_run o co D s evs = (s', L) -> rd_done s' = true.
Proof.
  induction evs as [|ev evs IH]; intros s s' L Dn R; cbn [rd_run] in R; [inversion R; subst; exact Dn|]. destruct (rd_step o co D s ev) as [s1 o1] eqn:St. destruct (rd_run o co D s1 evs) as [s2 o2] eqn:R2. inversion R; subst.
  apply (IH s1 s' o2); [|exact R2]. destruct ev; cbn [rd_step] in St; rewrite ?Dn in St; cbn [orb] in St; inversion St; subst; auto.
Qed.
Lemma open_run o co D evs : forall s s' L, rd_run o co D s evs = (s', L) -> rd_done s = false -> rd_done s' = false -> upd_open (rd_task s) L = rd_task s'.
Proof.
  induction evs as [|ev evs IH]; intros s s' L R Dn Dn'; cbn [rd_run] in R; [inversion R; subst; reflexivity|]. destruct (rd_step o co D s ev) as [s1 o1] eqn:St. destruct (rd_run o co D s1 evs) as [s2 o2] eqn:R2. inversion R; subst s2 L.
  assert (D1 : rd_done s1 = false). { destruct (rd_done s1) eqn:X; [|reflexivity]. rewrite (done_stays o co D evs s1 s' o2 X R2) in Dn'. discriminate. }
  rewrite upd_app, (open_step o co D s ev s1 o1 St Dn D1). exact (IH s1 s' o2 R2 D1 Dn').
Qed.

(*@prop C91 is violated by the request socket: once the transport has connected and the token is sent, a server that does not answer keeps the socket waiting for ever.  Whatever calls are made and however much time passes,
    no other connection attempt is made, no request is written and none times out: calls can only end with "socket closed" (which happens when the back-off, which runs on meanwhile, gives up). *)
Lemma C91_request_silent_server_refuted_pf :
  forall o co D evs s log token evs2 s2 log2,
  rd_run o co D rd_init evs = (s, log) -> rd_done s = false -> attempt_open log = true ->
  req_stalled token evs2 -> rd_run o co D s evs2 = (s2, log2) ->
  forall x, In x log2 -> exists c, x = Resolve c OClosed.
Proof.
  intros o co D evs s L token evs2 s2 L2 R Dn Op St R2.
  assert (Tk : rd_task s = true). { rewrite <- (open_run o co D evs rd_init s L R eq_refl Dn). exact Op. }
  assert (Cn : exists b, rd_conn s = RInactive b). { destruct (rd_conn s) as [|b] eqn:C; [|eauto]. pose proof (reachable_active_task o co D evs s L R C Dn). congruence. }
  apply Forall_forall. clear R Op.
  assert (J : rd_done s = true \/ (rd_done s = false /\ rd_task s = true /\ exists b, rd_conn s = RInactive b)) by (right; auto). clear Dn Tk Cn.
  revert s J St s2 L2 R2. induction evs2 as [|ev evs2 IH]; intros s J St s2 L2 R2; [inversion R2; constructor|].
  cbn [rd_run] in R2. destruct (rd_step o co D s ev) as [s1 o1] eqn:Sp. destruct (rd_run o co D s1 evs2) as [s3 o3] eqn:R3. inversion R2; subst s3 L2. clear R2.
  assert (K : (rd_done s1 = true \/ (rd_done s1 = false /\ rd_task s1 = true /\ exists b, rd_conn s1 = RInactive b)) /\ Forall (fun x => exists c, x = Resolve c OClosed) o1).
  { destruct ev as [c p| |e]; cbn [rd_step] in Sp.
    - destruct (rd_done s || rd_dropped s)%bool; inversion Sp; subst; (split; [exact J|]); repeat constructor; eauto.
    - inversion Sp; subst. split; [exact J|constructor].
    - destruct (rd_done s) eqn:Dn; [inversion Sp; subst; split; [left; exact Dn|constructor]|]. destruct J as [J|(_ & Tk & b & Cn)]; [discriminate J|].
      destruct (St e (or_introl eq_refl)) as (input & Si & Et). destruct (stall_client token input Si) as (w & rest & Ec). unfold req_task in Et. rewrite Ec in Et.
      destruct (rd_iter o co D e s) as [[s4 o4] c] eqn:It. inversion Sp; subst s4 o4. clear Sp. unfold rd_iter in It. destruct (flush_task o e s) as (F1 & F2 & F3). set (s0 := rd_do_flush o e s) in *. clearbody s0.
      unfold rd_do_task in It. rewrite F1, Tk, Et in It. rewrite F3, Cn in It. unfold rd_do_inactive in It. rewrite F1, Tk in It. destruct (bo_poll (e_now e) b) as [b' [d| | |]].
      + inversion It; subst. split; [right; cbn; split; [congruence|eauto]|constructor].
      + pose proof (finish_plain (set_conn s0 true (RInactive b'))) as Fp. inversion It; subst. split; [left; reflexivity|exact Fp].
      + inversion It; subst. split; [right; cbn; split; [congruence|eauto]|constructor].
      + pose proof (finish_plain s0) as Fp. inversion It; subst. split; [left; reflexivity|exact Fp]. }
  destruct K as (K1 & K2). apply Forall_app. split; [exact K2|]. exact (IH s1 K1 (fun e H => St e (or_intror H)) s2 o3 R3).
Qed.

(** ** Subscriber *)
Definition no_end (o : list uout) : Prop := forall a, attempts_ended a o = 0%nat.
Lemma no_end_app a b : no_end a -> no_end b -> no_end (a ++ b).
Proof. intros A B k. rewrite SubDriverP3.attempts_ended_app, A, B. reflexivity. Qed.
Lemma connect_no_end a s s' o : sb_connect a s = (s', o) -> no_end o.
Proof. unfold sb_connect. destruct (jm_spawn a (sb_tasks s)) as [j []]; intros [= <- <-] k; reflexivity. Qed.

Lemma stall_act token ingress initial D s ev s' o : (forall k r order, ev = YJoin k r order -> exists input, r = JConn true input /\ server_stalls input) ->
  sb_act (Some token) ingress initial D s ev = (s', o) -> no_end o.
Proof.
  intros St. destruct ev as [cid e|a now| |k r order|f| |]; cbn [sb_act].
  - unfold sb_session. destruct (mget cid (sb_conns s)) as [x|]; [|intros [= <- <-] k; reflexivity]. destruct (sc_alive x); [|intros [= <- <-] k; reflexivity].
    destruct (ss_iter cid e x) as [[x' o'] r] eqn:Si. intros [= <- <-]. destruct (ss_iter_plain _ _ _ _ _ _ Si) as (_ & B & _); exact B.
  - unfold sb_entry. destruct (mget a (sb_pubs s)) as [[cid|b]|]; [| |intros [= <- <-] k; reflexivity].
    + destruct (mget cid (sb_conns s)) as [x|]; [|intros [= <- <-] k; reflexivity]. destruct (sc_in x) as [|m rest].
      * destruct (sc_alive x); [intros [= <- <-] k; reflexivity|]. destruct (sb_reset initial a s) as [s2 o2] eqn:R. intros [= <- <-]. destruct (reset_plain _ _ _ _ _ R) as [(_ & B & _) _]. exact B.
      * cbv zeta. destruct (try_decompress _ _ _) as [pp|]; [|intros [= <- <-] k; reflexivity]. unfold sb_pass. destruct (sb_dropped _); [intros [= <- <-] k; reflexivity|]. destruct (_ <? _); intros [= <- <-] k; reflexivity.
    + destruct (bo_poll now b) as [b' [x| | |]]; try (intros [= <- <-] k; reflexivity). cbv zeta. destruct (jm_contains a (sb_tasks s)); [intros [= <- <-] k; reflexivity|].
      destruct (sb_connect a _) as [s2 o2] eqn:C. intros [= <- <-]. eapply connect_no_end; eauto.
  - unfold sb_next_command. destruct (sb_cmdq s) as [|c q]; [intros [= <- <-] k; reflexivity|]. destruct (sb_command initial c (sb_set_cmdq s q)) as [s1 o1] eqn:E. intros [= <- <-].
    change (UCmd c :: o1) with ([UCmd c] ++ o1). apply no_end_app; [intros k; reflexivity|]. destruct c as [t|t|a|a|]; cbn [sb_command] in E; cbv zeta in E.
    + destruct (smem t _); [injection E as <- <-; intros k; reflexivity|]. destruct (tell_frame _ _ _ _ _ _ E) as (_ & _ & B). exact B.
    + destruct (smem t _); [|injection E as <- <-; intros k; reflexivity]. destruct (tell_frame _ _ _ _ _ _ E) as (_ & _ & B). exact B.
    + destruct (mem a _); [injection E as <- <-; intros k; reflexivity|]. destruct (sb_connect a (sb_set_cmdq s q)) as [s2 o2] eqn:C. destruct (sb_reset initial a s2) as [s3 o3] eqn:R. injection E as <- <-.
      apply no_end_app; [eapply connect_no_end; eauto|]. destruct (reset_plain _ _ _ _ _ R) as [(_ & B & _) _]. exact B.
    + destruct (mget a _) as [st|]; [|injection E as <- <-; intros k; reflexivity]. destruct (sb_release (Some st) (sb_set_cmdq s q)) as [s2 o2] eqn:R. injection E as <- <-. destruct (release_plain _ _ _ _ R) as (_ & B & _). exact B.
    + injection E as <- <-; intros k; reflexivity.
  - destruct (St k r order eq_refl) as (input & -> & Si). destruct (stall_client token input Si) as (w & rest & Ec). unfold sb_join. destruct (nth_error _ k); [rewrite Ec|]; intros [= <- <-] k'; reflexivity.
  - unfold sb_call. destruct (sb_dropped s); [intros [= <- <-] k; reflexivity|]. destruct (api_command f) as [c|r]; [destruct (blen (sb_cmdq s) <? COMMAND_CAP)|]; intros [= <- <-] k; reflexivity.
  - unfold sb_take. destruct (sb_out s) as [|[[[c a] t] p] q]; intros [= <- <-] k; reflexivity.
  - unfold sb_drop. destruct (sb_dropped s); intros [= <- <-] k; reflexivity.
Qed.

(*@prop C91 is violated by the subscriber: once an attempt has got as far as the handshake, a publisher that does not answer blocks its address for ever: no new attempt is made for it - not by the back-off, and not after
    disconnect() and connect() either - and no connection comes of it. *)
Lemma C91_subscriber_silent_publisher_refuted_pf :
  forall token ingress initial D evs s log a evs2 s2 log2,
  sb_run (Some token) ingress initial D sb_init evs = (s, log) ->
  attempts a log = S (attempts_ended a log) ->
  sub_stalled evs2 -> sb_run (Some token) ingress initial D s evs2 = (s2, log2) ->
  ~ In (UConnect a) log2 /\ (forall cid b, ~ In (UOpen cid b) log2).
Proof.
  intros token ingress initial D evs s L a evs2 s2 L2 R At St R2.
  assert (Ne : no_end L2).
  { clear R At. revert s s2 L2 R2. induction evs2 as [|ev evs2 IH]; intros s s2 L2 R2; [inversion R2; intros k; reflexivity|].
    cbn [sb_run] in R2. destruct (sb_act (Some token) ingress initial D s ev) as [s1 o1] eqn:Ac. destruct (sb_run (Some token) ingress initial D s1 evs2) as [s3 o3] eqn:R3. inversion R2; subst s3 L2.
    apply no_end_app; [|exact (IH (fun k r order H => St k r order (or_intror H)) s1 s2 o3 R3)].
    apply (stall_act token ingress initial D s ev s1 o1); [|exact Ac]. intros k r order ->. apply (St k r order (or_introl eq_refl)). }
  split.
  - intros H. assert (R3 : sb_run (Some token) ingress initial D sb_init (evs ++ evs2) = (s2, L ++ L2)) by (rewrite SubDriverP.run_app, R, R2; reflexivity).
    pose proof (C46_one_attempt_at_a_time_partial_pf _ _ _ _ _ _ _ a R3) as [_ Q]. rewrite SubDriverP3.attempts_app, SubDriverP3.attempts_ended_app, (Ne a), At in Q.
    apply in_split in H. destruct H as (p & q & ->). rewrite SubDriverP3.attempts_app in Q. assert (X : attempts a (UConnect a :: q) = S (attempts a q)). { unfold attempts. cbn [filter]. destruct (eq_dec a a); [reflexivity|congruence]. } lia.
  - intros cid b H. apply in_split in H. destruct H as (p & q & ->). specialize (Ne b). rewrite SubDriverP3.attempts_ended_app in Ne.
    assert (X : attempts_ended b (UOpen cid b :: q) = S (attempts_ended b q)). { unfold attempts_ended. cbn [filter]. destruct (eq_dec b b); [reflexivity|congruence]. } lia.
Qed.

(*@example Room for two: two silent clients (one has sent a byte), then two more try to get in. *)
Lemma C91_reply_example_pf :
  forall a D, let r := rp_run (Some 2) 0 (Some a) None D rp_init (rep_arrivals [7; 9]) in
  let evs2 := [VAccept; VAuth 0 [IoData [x01]; IoPending] true; VAuth 1 [] true; VAccept] in
  rep_stalled evs2 /\ snd r = [RAccepted 0; RAccepted 1] /\ snd (rp_run (Some 2) 0 (Some a) None D (fst r) evs2) = [RRefused; RRefused].
Proof.
  intros a D. cbv zeta. split; [|split; vm_compute; reflexivity].
  intros k input ok [H|[H|[H|[H|[]]]]]; inversion H; subst; (split; [repeat constructor|split; [cbn; repeat constructor|intros x E; cbn in E; inversion E; reflexivity]]).
Qed.

(*@example One of them then closes its connection: its place is free. *)
Lemma C91_reply_given_back_example_pf :
  forall a D, let r := rp_run (Some 2) 0 (Some a) None D rp_init (rep_arrivals [7; 9]) in
  let q := rp_act (Some 2) 0 (Some a) None D (fst r) (VAuth 0 [IoData [x01]; IoPending; IoData []] true) in
  In (RGone 0) (snd q) /\ snd (rp_act (Some 2) 0 (Some a) None D (fst q) VAccept) = [RAccepted 2].
Proof. intros a D. vm_compute. repeat split. right; left; reflexivity. Qed.

(*@example *)
Lemma C91_publisher_example_pf :
  forall a, let r := pb_run (Some 1) 8 0 (Some a) None pb_init (pub_arrivals 1) in
  let evs2 := [WAuth 0 [IoPending; IoData [x01; x00]; IoPending] true; WAccept; WPublish [x61] [x07]] in
  pub_stalled evs2 /\ snd r = [QAccepted 0] /\ (exists m, snd (pb_run (Some 1) 8 0 (Some a) None (fst r) evs2) = [QRefused; QPublished m]) /\
  (let q := pb_act (Some 1) 8 0 (Some a) None (fst r) (WAuth 0 [IoErr] true) in In (QGone 0) (snd q) /\ snd (pb_act (Some 1) 8 0 (Some a) None (fst q) WAccept) = [QAccepted 1]).
Proof.
  intros a. cbv zeta. split; [|split; [vm_compute; reflexivity|split; [eexists; vm_compute; reflexivity|vm_compute; split; [right; left; reflexivity|reflexivity]]]].
  intros k input ok [H|[H|[H|[]]]]; inversion H; subst; (split; [repeat constructor|split; [cbn; repeat constructor|intros x E; cbn in E; inversion E; reflexivity]]).
Qed.

(*@example The attempt starts after 20 ms; the server never answers; a call made meanwhile does not time out (timeout 5 s, 100 s pass). *)
Lemma C91_request_example_pf :
  forall D, let r := rd_run ex_opts None D rd_init [EIter (ex_env 0); EIter (ex_env (20 * ms))] in
  let evs2 := [EReq 7 [x68]; EIter (ex_env (60 * ms)); EIter (ex_env (140 * ms)); EIter (ex_env (100000 * ms))] in
  snd r = [StartConnect] /\ rd_done (fst r) = false /\ attempt_open (snd r) = true /\ req_stalled [x01] evs2 /\ ro_timeout ex_opts < 100000 * ms /\
  snd (rd_run ex_opts None D (fst r) evs2) = [].
Proof.
  intros D. cbv zeta. split; [vm_compute; reflexivity|]. split; [vm_compute; reflexivity|]. split; [vm_compute; reflexivity|]. split; [|split; vm_compute; reflexivity].
  intros e [H|[H|[H|[H|[]]]]]; inversion H; subst; exists [IoPending]; (split; [split; [repeat constructor|reflexivity]|vm_compute; reflexivity]).
Qed.

(*@example connect; the publisher does not answer the handshake; disconnect and connect again: no new attempt. *)
Lemma C91_subscriber_example_pf :
  let run := sb_run (Some [x01]) 4 1000 sx_D in
  let r := run sb_init [YApi (ApConnect true (Some sx_addr)); YCommand] in
  let evs2 := [YJoin 0 (JConn true [IoPending; IoData [x01]]) []; YApi (ApDisconnect true (Some sx_addr)); YCommand; YApi (ApConnect true (Some sx_addr)); YCommand; YEntry sx_addr 10; YEntry sx_addr 2000] in
  SubSpec.attempts sx_addr (snd r) = S (attempts_ended sx_addr (snd r)) /\ sub_stalled evs2 /\
  In (UReset sx_addr) (snd (run (fst r) evs2)) /\ ~ In (UConnect sx_addr) (snd (run (fst r) evs2)).
Proof.
  cbv zeta. split; [vm_compute; reflexivity|]. split; [|split; [vm_compute; tauto|vm_compute; intuition discriminate]].
  intros k r order [H|[H|[H|[H|[H|[H|[H|[]]]]]]]]; inversion H; subst. eexists. split; [reflexivity|]. split; [repeat constructor|reflexivity].
Qed.
