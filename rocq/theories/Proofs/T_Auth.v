(** The handshake: C49 (client needs an acknowledgement), C55 (nothing is lost in the switch of codecs). *)
From Coq Require Import List NArith.
From Verif Require Import Model.Base Model.Map Model.Framed Model.WireAuth Model.Handshake Model.Compression Model.Backoff Model.JoinMap Model.WirePubSub Model.PubDriver Model.ReqDriver Model.SubDriver
  Spec.Wire Spec.Stream Spec.AuthCuts Spec.AuthSpec Spec.ReqSpec Spec.SubSpec.
Import ListNotations.
Open Scope N_scope.
(*HEADEND*)
From Coq Require Import ZArith ZifyBool ZifyNat ZifyN.
From Verif Require Import Proofs.BaseP Proofs.MapP Proofs.FramedP Proofs.AuthP Proofs.HandshakeP Proofs.HandshakeP2 Proofs.SubDriverP Proofs.SubDriverP6.

(*@prop C49 (the client's handshake): whatever the server sends, in whatever pieces, and however its stream ends: the client sends its auth frame and then goes on with the connection iff
    the first two bytes it gets are an acknowledgement; it gives up on anything else and at the end of the stream; as long as there is no verdict it waits.  It never panics. *)
Lemma C49_client_needs_acknowledgement_pf :
  forall token input e more, Forall delivery input -> (e = StillOpen -> more = []) ->
  exists frame rest, auth_client (Some token) true (input ++ ending_io e ++ more) =
    (match server_says (received input), e with
     | Acked, _ => ClOk
     | Refused, _ => ClErr
     | NoVerdict, StillOpen => ClRunning
     | NoVerdict, _ => ClErr
     end, frame, rest) /\ (blen token < 2 ^ 32 -> auth_frame token frame).
Proof.
  intros token input e more Hd Hm. destruct (auth_client_outcome token input e more Hd Hm) as (rest & H). rewrite H. eexists; exists rest. split.
  - unfold cl_says. destruct (server_says (received input)), e; reflexivity.
  - intros L. rewrite (au_frame_encode token _ au_client). auto.
Qed.

(*@prop C49 (subscriber): in every history of a subscriber with a token, a connection is put to use only by a connection attempt that has received an acknowledgement (01 v, v <> 0) as the first bytes from the publisher. *)
Lemma C49_subscriber_pf :
  forall token ingress initial D evs s before cid a after,
  sb_run (Some token) ingress initial D sb_init evs = (s, before ++ UOpen cid a :: after) ->
  exists evs1 k input order evs2 used v lost rest, evs = evs1 ++ YJoin k (JConn true input) order :: evs2 /\
    snd (sb_run (Some token) ingress initial D sb_init evs1) = before /\
    input = used ++ rest /\ received used = x01 :: v :: lost /\ v <> x00.
Proof.
  intros token ingress initial D evs s L1 k a L2 R.
  destruct (run_split_open (Some token) ingress initial D k a evs _ _ _ _ SI_init R) as (evs1 & ev & evs2 & s1 & s2 & x & order & o & L3 & E & R1 & G & -> & A & R2 & Fr).
  assert (X : exists j input ord, ev = YJoin j (JConn true input) ord /\ exists w rest, auth_client (Some token) true input = (ClOk, w, rest)).
  { destruct ev as [c e|b now| |j r ord|f| |]; cbn [sb_act] in A.
    - exfalso. unfold sb_session in A. destruct (mget c (sb_conns s1)) as [y|]; [|discriminate]. destruct (sc_alive y); [|discriminate].
      unfold ss_iter, ss_incoming in A. cbv zeta in A. destruct (y_next e); try discriminate.
      + destruct (negb _); [discriminate|]. destruct (_ <? _); discriminate.
      + assert (K : forall eg ans e' o' p f, eg_loop c eg ans = (e', o', p, f) -> match o' with UOpen _ _ :: _ => False | _ => True end).
        { clear. intros [|m eg] ans; cbn [eg_loop]; [intros ? ? ? ? [= <- <- <- <-]; exact I|]. destruct ans as [|[| |] ans]; [intros ? ? ? ? [= <- <- <- <-]; exact I|..].
          - destruct (eg_loop c eg ans) as [[[? ?] ?] ?]. intros ? ? ? ? [= <- <- <- <-]. exact I.
          - destruct (eg_loop c eg ans) as [[[? ?] ?] ?]. intros ? ? ? ? [= <- <- <- <-]. exact I.
          - intros ? ? ? ? [= <- <- <- <-]. exact I. }
        match type of A with context [eg_loop c ?q ?w] => destruct (eg_loop c q w) as [[[e' o'] p'] f'] eqn:El; apply K in El end.
        destruct p'; [injection A as _ ->; exact El|]. cbn [sc_cmds sc_set_egress sc_held] in A.
        destruct (sc_cmds y) as [|q qs]; [destruct (sc_held y)|destruct (cmd_frame (y_now e) q)]; injection A as _ A; destruct o' as [|z o']; try discriminate; injection A as -> _; exact El.
      + assert (K : forall eg ans e' o' p f, eg_loop c eg ans = (e', o', p, f) -> match o' with UOpen _ _ :: _ => False | _ => True end).
        { clear. intros [|m eg] ans; cbn [eg_loop]; [intros ? ? ? ? [= <- <- <- <-]; exact I|]. destruct ans as [|[| |] ans]; [intros ? ? ? ? [= <- <- <- <-]; exact I|..].
          - destruct (eg_loop c eg ans) as [[[? ?] ?] ?]. intros ? ? ? ? [= <- <- <- <-]. exact I.
          - destruct (eg_loop c eg ans) as [[[? ?] ?] ?]. intros ? ? ? ? [= <- <- <- <-]. exact I.
          - intros ? ? ? ? [= <- <- <- <-]. exact I. }
        match type of A with context [eg_loop c ?q ?w] => destruct (eg_loop c q w) as [[[e' o'] p'] f'] eqn:El; apply K in El end.
        destruct p'; [injection A as _ ->; exact El|]. cbn [sc_cmds sc_set_egress sc_held] in A.
        destruct (sc_cmds y) as [|q qs]; [destruct (sc_held y)|destruct (cmd_frame (y_now e) q)]; injection A as _ A; destruct o' as [|z o']; try discriminate; injection A as -> _; exact El.
    - exfalso. unfold sb_entry in A. destruct (mget b (sb_pubs s1)) as [[c|bo]|] eqn:Gb; [..|discriminate].
      + destruct (mget c (sb_conns s1)) as [y|] eqn:Gc; [|discriminate]. destruct (sc_in y) as [|m rest].
        * destruct (sc_alive y); [discriminate|]. unfold sb_reset, sb_release in A. rewrite Gb, Gc in A. discriminate.
        * destruct (try_decompress _ _ _); [|discriminate]. unfold sb_pass in A. destruct (sb_dropped _); [discriminate|]. destruct (_ <? _); discriminate.
      + destruct (bo_poll now bo) as [b' []]; try discriminate. destruct (jm_contains _ _); [discriminate|]. unfold sb_connect in A. destruct (jm_spawn _ _) as [? []]; discriminate.
    - exfalso. unfold sb_next_command in A. destruct (sb_cmdq s1) as [|c q]; [discriminate|]. destruct (sb_command _ _ _). discriminate.
    - unfold sb_join in A. destruct (nth_error _ j) as [b|]; [|discriminate]. destruct r as [| |ok input]; try discriminate.
      destruct (auth_client (Some token) ok input) as [[[] w] rest] eqn:Au; try discriminate. destruct (auth_client_ok _ _ _ _ _ Au) as (-> & _). exists j, input, ord. split; [reflexivity|]. eauto.
    - exfalso. unfold sb_call in A. destruct (sb_dropped s1); [discriminate|]. destruct (api_command f); [destruct (_ <? _)|]; discriminate.
    - exfalso. unfold sb_take in A. destruct (sb_out s1) as [|[[[? ?] ?] ?] ?]; discriminate.
    - exfalso. unfold sb_drop in A. destruct (sb_dropped s1); discriminate. }
  destruct X as (j & input & ord & -> & w & rest & Au). destruct (auth_client_ok _ _ _ _ _ Au) as (_ & _ & used & v & lost & -> & Hr & Hv).
  exists evs1, j, (used ++ rest), ord, evs2, used, v, lost, rest. rewrite R1. auto.
Qed.

(*@prop C49 (request socket): if the polls of the connection task answer as the code of the task does ([progress] telling how far the transport and the handshake are), then in every history of a
    request socket with a token a connection becomes active only if its attempt has received an acknowledgement as the first bytes from the server. *)
Lemma C49_request_socket_pf :
  forall o co D token progress evs s before after,
  (forall e, In (EIter e) evs -> e_task e = req_task (Some token) (progress e)) ->
  rd_run o co D rd_init evs = (s, before ++ Connected :: after) ->
  exists evs1 e evs2 input used v lost rest, evs = evs1 ++ EIter e :: evs2 /\ snd (rd_run o co D rd_init evs1) = before /\
    progress e = CpConn true input /\ input = used ++ rest /\ received used = x01 :: v :: lost /\ v <> x00.
Proof.
  intros o co D token progress evs s b a Hp.
  enough (G : forall evs s0 s b, (forall e, In (EIter e) evs -> e_task e = req_task (Some token) (progress e)) -> rd_run o co D s0 evs = (s, b ++ Connected :: a) ->
    exists evs1 e evs2, evs = evs1 ++ EIter e :: evs2 /\ snd (rd_run o co D s0 evs1) = b /\ e_task e = Some true).
  { intros R. destruct (G _ _ _ _ Hp R) as (evs1 & e & evs2 & -> & H1 & H2). rewrite Hp in H2 by (apply in_or_app; right; now left).
    unfold req_task in H2. destruct (progress e) as [| |ok input] eqn:Pr; try discriminate. destruct (auth_client (Some token) ok input) as [[[] w] rest] eqn:Au; try discriminate.
    destruct (auth_client_ok _ _ _ _ _ Au) as (-> & _ & used & v & lost & -> & Hr & Hv). exists evs1, e, evs2, (used ++ rest), used, v, lost, rest. repeat (split; [solve [auto]|]). exact Hv. }
  clear. induction evs as [|ev evs IH]; intros s0 s b Hp; cbn [rd_run].
  - intros [= _ H]. destruct b; discriminate.
  - destruct (rd_step o co D s0 ev) as [s1 o1] eqn:St. destruct (rd_run o co D s1 evs) as [s2 o2] eqn:R. intros [= <- E].
    (* Connected can only be the first output of an iteration *)
    assert (K : ~ In Connected (tl o1) /\ (forall z, o1 = Connected :: z -> exists e, ev = EIter e /\ e_task e = Some true)).
    { assert (Nc : forall l, (forall x, In x l -> x <> Connected) -> ~ In Connected (tl l) /\ forall z, l = Connected :: z -> False).
      { intros l H. split; [intros Hi; destruct l; [destruct Hi|]; apply (H Connected); [now right|reflexivity]|]. intros z ->. apply (H Connected); [now left|reflexivity]. }
      destruct ev as [c p| |e]; cbn [rd_step] in St.
      - destruct (_ || _); injection St as <- <-; (split; [cbn [tl]; intros []|discriminate]).
      - injection St as <- <-. split; [intros []|discriminate].
      - destruct (rd_done s0); [injection St as <- <-; split; [intros []|discriminate]|].
        assert (Na : forall t st s' os c, rd_do_active o co D t st = (s', os, c) -> forall x, In x os -> x <> Connected).
        { clear. intros t st s' os c. unfold rd_do_active. destruct (e_next t) as [m| | |].
          - unfold rd_on_message. destruct (mget _ _) as [[? ?]|]; [destruct (try_decompress _ _ _)|]; intros [= <- <- <-] x Hi; try destruct Hi as [<-|[]]; try discriminate. destruct Hi.
          - intros [= <- <- <-] x [].
          - unfold rd_finish. intros [= <- <- <-] x Hi. apply in_app_or in Hi. destruct Hi as [Hi|Hi]; apply in_map_iff in Hi; destruct Hi as (? & <- & _); discriminate.
          - assert (RT : forall ids p p' l, remove_timed_out ids p = (p', l) -> forall x, In x l -> x <> Connected).
            { clear. induction ids as [|id ids IH]; intros p p' l; cbn [remove_timed_out]; [intros [= <- <-] x []|]. destruct (mget id p) as [[? cc]|]; [|apply IH].
              destruct (remove_timed_out ids _) as [p2 l2] eqn:Q. intros [= <- <-] x [<-|Hi]; [discriminate|]. eapply IH; eauto. }
            assert (T : forall n now st s' os, rd_ticks o n now st = (s', os) -> forall x, In x os -> x <> Connected).
            { clear -RT. induction n as [|n IH]; intros now st s' os; cbn [rd_ticks]; [intros [= <- <-] x []|].
              unfold rd_check_timeouts. destruct (remove_timed_out _ _) as [p' l] eqn:Rm. destruct (rd_ticks o n now _) as [s2 o2] eqn:Rt. intros [= <- <-] x Hi.
              destruct Hi as [<-|Hi]; [discriminate|]. apply in_app_or in Hi. destruct Hi as [Hi|Hi]; [|eapply IH; eauto].
              eapply RT; eauto. }
            assert (C : rd_ticks o (e_ticks t) (e_now t) st = rd_ticks o (e_ticks t) (e_now t) st) by reflexivity. revert C. generalize (rd_ticks o (e_ticks t) (e_now t) st) at 1 3. intros [s1 o1] C. symmetry in C.
            destruct (if e_ready t then rd_egress st else []) as [|m q].
            + unfold rd_do_command. destruct (e_recv t); [|intros [= <- <- <-] x Hi; rewrite app_nil_r in Hi; eapply T; eauto].
              destruct (rd_cmds s1) as [|[cc pp] rest].
              * destruct (rd_dropped s1); [destruct (e_close t); [unfold rd_finish|]|]; intros [= <- <- <-] x Hi; apply in_app_or in Hi; (destruct Hi as [Hi|Hi]; [eapply T; eauto|]); try destruct Hi.
                apply in_app_or in Hi. destruct Hi as [Hi|Hi]; apply in_map_iff in Hi; destruct Hi as (? & <- & _); discriminate.
              * unfold rd_on_command. intros [= <- <- <-] x Hi. apply in_app_or in Hi. destruct Hi as [Hi|[<-|Hi]]; [eapply T; eauto|discriminate|]. destruct (mget _ _) as [[? ?]|]; [destruct Hi as [<-|[]]; discriminate|destruct Hi].
            + destruct (e_send t); intros [= <- <- <-] x [<-|[]]; discriminate. }
        assert (Ni : forall t b st s' os c, rd_do_inactive t b st = (s', os, c) -> forall x, In x os -> x <> Connected).
        { clear. intros t b st s' os c. unfold rd_do_inactive, rd_finish. destruct (bo_poll (e_now t) b) as [b' []].
          - destruct (rd_task st); intros [= <- <- <-] x Hi; [destruct Hi|destruct Hi as [<-|[]]; discriminate].
          - intros [= <- <- <-] x Hi. apply in_app_or in Hi. destruct Hi as [Hi|Hi]; apply in_map_iff in Hi; destruct Hi as (? & <- & _); discriminate.
          - intros [= <- <- <-] x [].
          - intros [= <- <- <-] x Hi. apply in_app_or in Hi. destruct Hi as [Hi|Hi]; apply in_map_iff in Hi; destruct Hi as (? & <- & _); discriminate. }
        unfold rd_iter in St. destruct (rd_do_task e (rd_do_flush o e s0)) as [s3 o3] eqn:Tk. unfold rd_do_task in Tk.
        destruct (rd_task (rd_do_flush o e s0)); [destruct (e_task e) as [[]|] eqn:Te|]; injection Tk as <- <-.
        + cbn [rd_conn set_conn] in St. destruct (rd_do_active o co D e _) as [[s4 o4] c] eqn:Ac. injection St as <- <-. split; [intros Hi; exact (Na _ _ _ _ _ Ac _ Hi eq_refl)|]. intros z _. exists e. auto.
        + destruct (rd_conn _).
          * destruct (rd_do_active o co D e _) as [[s4 o4] c] eqn:Ac. injection St as <- <-. split; [intros Hi; exact (Na _ _ _ _ _ Ac _ Hi eq_refl)|discriminate].
          * destruct (rd_do_inactive e b0 _) as [[s4 o4] c] eqn:Ac. injection St as <- <-. split; [intros Hi; exact (Ni _ _ _ _ _ _ Ac _ Hi eq_refl)|discriminate].
        + destruct (rd_conn _).
          * destruct (rd_do_active o co D e _) as [[s4 o4] c] eqn:Ac. injection St as <- <-. destruct (Nc o4 (Na _ _ _ _ _ Ac)) as [N1 N2]. split; [exact N1|]. intros z X. destruct (N2 z X).
          * destruct (rd_do_inactive e b0 _) as [[s4 o4] c] eqn:Ac. injection St as <- <-. destruct (Nc o4 (Ni _ _ _ _ _ _ Ac)) as [N1 N2]. split; [exact N1|]. intros z X. destruct (N2 z X).
        + destruct (rd_conn _).
          * destruct (rd_do_active o co D e _) as [[s4 o4] c] eqn:Ac. injection St as <- <-. destruct (Nc o4 (Na _ _ _ _ _ Ac)) as [N1 N2]. split; [exact N1|]. intros z X. destruct (N2 z X).
          * destruct (rd_do_inactive e b0 _) as [[s4 o4] c] eqn:Ac. injection St as <- <-. destruct (Nc o4 (Ni _ _ _ _ _ _ Ac)) as [N1 N2]. split; [exact N1|]. intros z X. destruct (N2 z X). }
    destruct K as [K1 K2].
    assert (Rec : forall b', b = o1 ++ b' -> o2 = b' ++ Connected :: a -> exists evs1 e evs2, ev :: evs = evs1 ++ EIter e :: evs2 /\ snd (rd_run o co D s0 evs1) = b /\ e_task e = Some true).
    { intros b' -> ->. destruct (IH s1 s2 b') as (evs1 & e & evs2 & -> & H1 & H2); [intros e He; apply Hp; now right|exact R|].
      exists (ev :: evs1), e, evs2. split; [reflexivity|]. split; [|exact H2]. cbn [rd_run]. rewrite St. destruct (rd_run o co D s1 evs1) as [s3 o3]. cbn [snd] in H1 |- *. now rewrite H1. }
    destruct o1 as [|z o1]; [apply (Rec b); auto|]. destruct b as [|z' b]; cbn [app] in E; injection E as -> E.
    + destruct (K2 o1 eq_refl) as (e & -> & Te). exists [], e, evs. auto.
    + assert (S : exists b', b = o1 ++ b' /\ o2 = b' ++ Connected :: a).
      { clear -K1 E. cbn [tl] in K1. revert b E K1. induction o1 as [|y o1 IH]; intros b E K1; cbn [app] in E; [exists b; auto|]. destruct b as [|w b]; cbn [app] in E.
        - exfalso. inversion E; subst. apply K1. now left.
        - inversion E as [[E1 E2]]; subst w; clear E; rename E2 into E. destruct (IH _ E) as (b' & -> & ->); [intros Hi; apply K1; now right|]. exists b'. auto. }
      destruct S as (b' & -> & E2). apply (Rec b'); auto.
Qed.

(*@example *)
Lemma C49_example_pf :
  let t := [x41; x42] in
  server_says [x01; x01] = Acked /\
  fst (fst (auth_client (Some t) true [IoPending; IoData [x01]; IoPending; IoData [x01; x55]])) = ClOk /\
  fst (fst (auth_client (Some t) true [IoData [x01]; IoData [x00]])) = ClErr /\
  fst (fst (auth_client (Some t) true [IoData [x03; x01]])) = ClErr /\
  fst (fst (auth_client (Some t) true [IoData [x01]; IoData []])) = ClErr /\
  fst (fst (auth_client (Some t) true [IoData [x01]; IoPending])) = ClRunning /\
  (let r := sb_run (Some t) 4 1000 sx_D sb_init [YApi (ApConnect true (Some sx_addr)); YCommand; YJoin 0 (JConn true [IoData [x01; x01]]) []] in In (UOpen 0 sx_addr) (snd r)) /\
  (let r := sb_run (Some t) 4 1000 sx_D sb_init [YApi (ApConnect true (Some sx_addr)); YCommand; YJoin 0 (JConn true [IoData [x01; x00]]) []] in In (UConnectFailed sx_addr) (snd r)) /\
  In Connected (snd (rd_run ex_opts None sx_D rd_init (firstn 2 ex_hist ++ [EIter (mkEnv (21 * ms) false true (req_task (Some t) (CpConn true [IoData [x01; x01]])) NxPending true true 1 true true)]))).
Proof. vm_compute. repeat split; repeat (first [reflexivity | left; reflexivity | right]). Qed.

(*@prop C55 (server): if the client sends its auth frame - in pieces that do not crash the codec (C03) - and nothing else before it has the acknowledgement, the server's handshake succeeds (for a good token) having read exactly this
    frame: the connection it hands over still delivers every byte that comes after it. *)
Lemma C55_server_handshake_reads_only_the_auth_frame_pf :
  forall a token frame pre post,
  auth_frame token frame -> Forall delivery pre -> received pre = frame -> existsb (fatal_cut (blen token)) (cuts 0 pre) = false -> a token = true ->
  exists rest, auth_server a true (pre ++ post) = (AuthOk token, [x01; x01], rest) /\ received rest = received post.
Proof.
  intros a token frame pre post Hf Hd Hr Hc Ha. destruct (auth_server_rest a token frame pre post Hf Hd Hr Hc Ha) as (rest & H & E). exists (rest ++ post).
  rewrite received_app, E. auto.
Qed.

(*@prop C55 (client): if the server sends its acknowledgement and nothing else before it hears from the client again, the client's handshake succeeds having read exactly the acknowledgement:
    the connection it goes on with still delivers every byte that comes after it. *)
Lemma C55_client_handshake_reads_only_the_ack_pf :
  forall token v pre post,
  Forall delivery pre -> received pre = [x01; v] -> v <> x00 ->
  exists w rest, auth_client (Some token) true (pre ++ post) = (ClOk, w, rest) /\ received rest = received post.
Proof.
  intros token v pre post Hd Hr Hv. destruct (auth_client_rest token pre post v Hd Hr Hv) as (rest & H & E). eexists. exists (rest ++ post). split; [exact H|].
  rewrite received_app, E. reflexivity.
Qed.

(*@example The hypotheses are met by a frame in two pieces; and they are needed: a server that sends a message right behind its acknowledgement - so that one read returns both - loses it, and so does a client that does not wait. *)
Lemma C55_example_pf :
  let t := [x41; x42] in let fr := fst (au_encode au_client (AuthM t)) in
  auth_server (fun _ => true) true ([IoData (firstn 3 fr); IoPending; IoData (skipn 3 fr)] ++ [IoData [x02; x00]]) = (AuthOk t, [x01; x01], [IoData [x02; x00]]) /\
  existsb (fatal_cut (blen t)) (cuts 0 [IoData (firstn 3 fr); IoPending; IoData (skipn 3 fr)]) = false /\
  snd (auth_client (Some t) true ([IoData [x01]; IoData [x01]; IoPending] ++ [IoData [x03; x04]])) = [IoPending; IoData [x03; x04]] /\
  (* lost: *)
  auth_server (fun _ => true) true [IoData (fr ++ [x02; x00])] = (AuthOk t, [x01; x01], []) /\
  auth_client (Some t) true [IoData [x01; x01; x03; x04]] = (ClOk, fr, []).
Proof. vm_compute. repeat split; repeat (first [reflexivity | left; reflexivity | right]). Qed.
