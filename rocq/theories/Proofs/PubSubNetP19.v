(** The joint model of a subscriber and a publisher socket: the way back to a connection. *)
From Coq Require Import ZArith Permutation Sorting.Sorted.
From Verif Require Import Model.Base Model.Map Model.Framed Model.WirePubSub Model.WireAuth Model.Compression Model.Handshake Model.JoinMap Model.Backoff Model.Trie Model.Utf8 Model.PubDriver Model.SubDriver Model.Net Model.PubSubNet
  Spec.Wire Spec.Stream Spec.CompressSpec Spec.PubSpec Spec.SubSpec Spec.Utf8Spec Spec.NetSpec2 Spec.NetSpec6 Spec.NetSpec9
  Proofs.BaseP Proofs.MapP Proofs.PubSubP Proofs.NetP Proofs.PubSubNetP Proofs.PubNetP Proofs.SubNetP Proofs.PubSubNetP2 Proofs.PubSubNetP3 Proofs.PubSubNetP5 Proofs.PubSubNetP6 Proofs.PubSubNetP15.
From Verif Require Import Model.Stats.
From Verif Require Proofs.ReqRepNetP13 Proofs.SubDriverP3 Proofs.SubDriverP5 Proofs.SubDriverP10.
Local Open Scope N_scope.

(** ** The topics are told *)
Lemma greet_tells c : forall ts x, sc_alive x = true -> blen (sc_cmds x) <= 64 ->
  exists o, sb_greet c ts x = (sc_set_cmds x (sc_cmds x ++ map SSub (firstn (64 - length (sc_cmds x)) ts)), o) /\
    Forall (fun u => exists t r, u = UTry c (SSub t) r /\ r <> TClosed) o.
Proof.
  induction ts as [|t ts IH]; intros x Al Ln.
  - exists []. cbn [sb_greet]. rewrite firstn_nil. cbn [map]. rewrite app_nil_r. split; [destruct x; reflexivity|constructor].
  - cbn [sb_greet]. unfold sc_try. rewrite Al. cbn [negb]. unfold CMD_CAP. destruct (N.ltb_spec (blen (sc_cmds x)) 64) as [L|L]; unfold blen in *.
    + destruct (IH (sc_set_cmds x (sc_cmds x ++ [SSub t]))) as (o & E & F); [exact Al|cbn [sc_set_cmds sc_cmds]; rewrite app_length; cbn [length]; lia|].
      rewrite E. exists (UTry c (SSub t) TSent :: o). split; [|constructor; [exists t, TSent; split; [reflexivity|discriminate]|exact F]]. cbn [sc_set_cmds sc_cmds].
      rewrite app_length. cbn [length]. replace (64 - length (sc_cmds x))%nat with (S (64 - (length (sc_cmds x) + 1)))%nat by lia. cbn [firstn map]. rewrite <- app_assoc. reflexivity.
    + destruct (IH x) as (o & E & F); [exact Al|lia|]. rewrite E. exists (UTry c (SSub t) TFull :: o). split; [|constructor; [exists t, TFull; split; [reflexivity|discriminate]|exact F]].
      replace (64 - length (sc_cmds x))%nat with 0%nat by lia. reflexivity.
Qed.

Section Z.
Variables (token : option bytes) (ingress initial : N) (D : decompressors)
          (max : option N) (buf min : N) (auth : option (bytes -> bool)) (co : option compressor).
Notation step := (z_step token ingress initial D max buf min auth co).
Notation run := (z_run token ingress initial D max buf min auth co).

Lemma pb_accept_room s : pub_has_room max s -> pb_accept max s =
  (pb_incr (mkPb (pb_active s) (pb_conns s ++ [pb_next_cid s]) (pb_auths s) (pb_sess s) (pb_hist s) (pb_closed s) (pb_next_cid s + 1) (pb_tx s)), [QAccepted (pb_next_cid s)]).
Proof using. unfold pub_has_room, pb_accept. destruct max as [m|]; [|reflexivity]. intros H. destruct (N.leb_spec m (pb_active s)); [lia|reflexivity]. Qed.

Definition back_evs (z : zsys) (a : addr) (k : nat) (order : list bytes) : list zev :=
  [ZConnected a true; ZAccept (Some (z_fresh z)); ZConn (length (pb_conns (z_s z))) (Some true)] ++
  match token with Some tok => [ZAuth (length (pb_auths (z_s z))) [IoData (z_hello token true)] true] | None => [] end ++
  [ZJoin k (JConn true (match token with Some _ => [IoData [x01; x01]] | None => [] end)) order].

Definition pub_joined (s : pb) : pb :=
  mkPb (wrap64 (pb_active s + 1)) (pb_conns s) (pb_auths s) (mset (pb_next_cid s) (sess_new (blen (pb_hist s))) (pb_sess s)) (pb_hist s) (pb_closed s) (pb_next_cid s + 1) (pb_tx s).
Definition pub_log (s : pb) : list qout :=
  let d := pb_next_cid s in
  [QAccepted d] ++ match token with Some tok => [QAuthReply d [x01; x01]; QAuthed d [IoData (z_hello token true)] tok] | None => [] end ++ [QOpen d].
Definition sub_joined (a : addr) (k : nat) (order : list bytes) (c : sb) : sb :=
  mkSb (sb_cmdq c) (sb_out c) (sb_dropped c) (fst (jm_join k false (sb_tasks c))) (sb_topics c) (mset a (PActive (sb_next c)) (sb_pubs c))
       (mset a (sb_next c) (sb_stats c)) (mset (sb_next c) (fst (sb_greet (sb_next c) (arrange order (sb_topics c)) (sc_new a))) (sb_conns c)) (sb_next c + 1).
Definition sub_log (a : addr) (order : list bytes) (c : sb) : list uout := UOpen (sb_next c) a :: snd (sb_greet (sb_next c) (arrange order (sb_topics c)) (sc_new a)).

Lemma join_makes a k order c ok input w rest : nth_error (jm_tasks (sb_tasks c)) k = Some a -> (forall e, mget a (sb_pubs c) <> Some (PActive e)) -> auth_client token ok input = (ClOk, w, rest) ->
  sb_act token ingress initial D c (YJoin k (JConn ok input) order) = (sub_joined a k order c, sub_log a order c).
Proof using.
  intros Nk Na Au. cbn [sb_act]. unfold sb_join. rewrite Nk, Au. unfold sb_connected. cbn [sb_set_tasks sb_pubs sb_next sb_topics].
  assert (E : forall (A : Type) (x y : A), match mget a (sb_pubs c) with Some (PActive _) => x | _ => y end = y) by (intros; destruct (mget a (sb_pubs c)) as [[e|e]|]; [destruct (Na e); reflexivity|reflexivity..]).
  rewrite E. unfold sub_joined, sub_log. destruct (sb_greet (sb_next c) (arrange order (sb_topics c)) (sc_new a)) as [x o]. reflexivity.
Qed.
Lemma sub_log_dull a order c : forall e m b, ~ In (UWire e m b) (sub_log a order c).
Proof using.
  intros e m b [H|H]; [discriminate|]. destruct (greet_tells (sb_next c) (arrange order (sb_topics c)) (sc_new a)) as (o & E & F); [reflexivity|cbn; lia|]. rewrite E in H. cbn [snd] in H.
  rewrite Forall_forall in F. destruct (F _ H) as (t & r & K & _). discriminate.
Qed.

Hypothesis TOK : forall t, token = Some t -> blen t < 2 ^ 32.
Lemma back_base z a b k order : mget a (sb_pubs (z_c z)) = Some (PInactive b) -> nth_error (jm_tasks (sb_tasks (z_c z))) k = Some a -> mget a (z_tasks z) = None ->
  sub_let_in token auth -> pub_has_room max (z_s z) ->
  let c := sb_next (z_c z) in let d := pb_next_cid (z_s z) in let l := z_fresh z in
  exists bl cevs sevs lk, fold_left step (back_evs z a k order) z =
    mkZ (sub_joined a k order (z_c z)) (pub_joined (z_s z)) (mset l lk (z_links z)) bl (mset d l (z_scids z)) (mset c l (z_ccids z)) (mdel a (mset a (l, true) (z_tasks z)))
        cevs (z_clog z ++ sub_log a order (z_c z)) sevs (z_slog z ++ pub_log (z_s z)) /\
    unbroken lk /\ en_sent (lk_c lk) = [] /\ en_sent (lk_s lk) = [].
Proof using TOK.
  intros Pa Nk Ta Wc Rm c d l. unfold back_evs. cbn [app fold_left]. set (k0 := link_c_greet (z_hello token true) plink0).
  set (z1 := mkZ (z_c z) (z_s z) (mset l k0 (z_links z)) (z_backlog z ++ [l]) (z_scids z) (z_ccids z) (mset a (l, true) (z_tasks z)) (z_cevs z) (z_clog z) (z_sevs z) (z_slog z)).
  assert (E1 : step z (ZConnected a true) = z1).
  { cbn [z_step]. unfold z_connected. assert (Sm : smem a (jm_tasks (sb_tasks (z_c z))) = true) by (apply smem_true; eapply nth_error_In; exact Nk). rewrite Sm, Ta. reflexivity. }
  rewrite E1. clear E1.
  set (s2 := pb_incr (mkPb (pb_active (z_s z)) (pb_conns (z_s z) ++ [d]) (pb_auths (z_s z)) (pb_sess (z_s z)) (pb_hist (z_s z)) (pb_closed (z_s z)) (d + 1) (pb_tx (z_s z)))).
  set (bl := sdel l (z_backlog z ++ [l])).
  set (z2 := mkZ (z_c z) s2 (mset l k0 (z_links z)) bl (mset d l (z_scids z)) (z_ccids z) (mset a (l, true) (z_tasks z)) (z_cevs z) (z_clog z) (z_sevs z ++ [WAccept]) (z_slog z ++ [QAccepted d])).
  assert (E2 : step z1 (ZAccept (Some l)) = z2).
  { cbn [z_step]. unfold z_accept. cbn [z1 z_backlog z_s]. assert (Sm : smem l (z_backlog z ++ [l]) = true) by (apply smem_true, in_or_app; right; left; reflexivity). rewrite Sm.
    unfold z_pub. cbn [z1 z_s pb_act]. rewrite (pb_accept_room _ Rm). fold d. cbn [z_s z_links z_backlog z_scids z_ccids z_tasks z_cevs z_clog z_sevs z_slog z_c fold_left s_route pb_incr pb_with_active pb_next_cid].
    destruct (N.eqb_spec d (d + 1)); [lia|]. reflexivity. }
  fold l. rewrite E2. clear E2.
  assert (Nw : forall v, mget l (mset l v (z_links z)) = Some v) by (intros; apply mget_set_eq).
  (* the subscriber's last step *)
  assert (Fin : forall s sevs slog lk tio w rest, pipe_offers tio (en_in (lk_c lk)) = true -> auth_client token true tio = (ClOk, w, rest) ->
     exists cevs, step (mkZ (z_c z) s (mset l lk (z_links z)) bl (mset d l (z_scids z)) (z_ccids z) (mset a (l, true) (z_tasks z)) (z_cevs z) (z_clog z) sevs slog) (ZJoin k (JConn true tio) order) =
       mkZ (sub_joined a k order (z_c z)) s (mset l (mkLink (end_on (end_hs tio rest (lk_c lk))) (lk_s lk)) (z_links z)) bl (mset d l (z_scids z)) (mset c l (z_ccids z))
         (mdel a (mset a (l, true) (z_tasks z))) cevs (z_clog z ++ sub_log a order (z_c z)) sevs slog).
  { intros s sevs slog lk tio w rest Of Au. exists (z_cevs z ++ [YJoin k (JConn true tio) order]). cbn [z_step]. unfold z_join. cbn [z_c z_tasks z_links]. rewrite Nk, mget_set_eq, Nw, Of, Au. cbv zeta. unfold z_sub. cbn [z_c].
    rewrite (join_makes a k order (z_c z) true tio w rest Nk) by (exact Au || (intros e He; congruence)).
    cbn [z_end_task z_c z_s z_links z_backlog z_scids z_ccids z_tasks z_cevs z_clog z_sevs z_slog]. rewrite (no_wire_routes _ _ (sub_log_dull a order (z_c z))). fold c. unfold sub_joined at 1. cbn [sb_next].
    destruct (N.eqb_spec c (sb_next (z_c z) + 1)) as [Q|_]; [unfold c in Q; lia|]. rewrite mset_mset. reflexivity. }
  unfold sub_let_in in Wc. unfold pub_log. fold d. set (stp := step) in *.
  assert (Cs : (token = None /\ auth = None) \/ exists tok au, token = Some tok /\ auth = Some au /\ au tok = true) by (destruct token as [tok|], auth as [au|]; try contradiction; eauto 6).
  destruct Cs as [[Tok Au]|(tok & au & Tok & Au & Ok)].
  - set (k3 := mkLink (lk_c k0) (end_on (lk_s k0))). set (v3 := (z_sevs z ++ [WAccept]) ++ [WConn (length (pb_conns (z_s z))) (Some true)]). set (g3 := (z_slog z ++ [QAccepted d]) ++ [QOpen d]).
    assert (E3 : stp z2 (ZConn (length (pb_conns (z_s z))) (Some true)) = mkZ (z_c z) (pub_joined (z_s z)) (mset l k3 (z_links z)) bl (mset d l (z_scids z)) (z_ccids z) (mset a (l, true) (z_tasks z)) (z_cevs z) (z_clog z) v3 g3).
    { unfold stp. cbn [z_step]. unfold z_pub. cbn [z2 z_s pb_act]. unfold pb_conn. cbn [s2 pb_incr pb_with_active pb_conns]. rewrite ReqRepNetP13.nth_last, ReqRepNetP13.cut_last, Au. unfold pb_open.
      cbn [z_links z_scids z2 fold_left s_route]. unfold on_link. rewrite mget_set_eq, Nw, mset_mset. reflexivity. }
    rewrite E3, Tok. cbn [app fold_left].
    destruct (Fin (pub_joined (z_s z)) v3 g3 k3 [] [] []) as (cevs & E); [reflexivity|rewrite Tok; reflexivity|].
    exists bl, cevs, v3. eexists. rewrite E. unfold g3. rewrite <- !app_assoc. split; [reflexivity|]. repeat split; reflexivity.
  - assert (Lt : blen tok < 2 ^ 32) by (apply TOK; exact Tok).
    destruct (ReqRepNetP13.server_takes au tok Lt Ok) as (rest & As & Rs). set (h := z_hello token true). assert (Eh : h = fst (au_encode au_client (AuthM tok))) by (unfold h, z_hello; rewrite Tok; reflexivity).
    rewrite <- Eh in As.
    set (s3 := mkPb (pb_active s2) (pb_conns (z_s z)) (pb_auths (z_s z) ++ [d]) (pb_sess s2) (pb_hist s2) (pb_closed s2) (pb_next_cid s2) (pb_tx s2)).
    set (v3 := (z_sevs z ++ [WAccept]) ++ [WConn (length (pb_conns (z_s z))) (Some true)]).
    set (z3 := mkZ (z_c z) s3 (mset l k0 (z_links z)) bl (mset d l (z_scids z)) (z_ccids z) (mset a (l, true) (z_tasks z)) (z_cevs z) (z_clog z) v3 ((z_slog z ++ [QAccepted d]) ++ [])).
    assert (E3 : stp z2 (ZConn (length (pb_conns (z_s z))) (Some true)) = z3).
    { unfold stp. cbn [z_step]. unfold z_pub. cbn [z2 z_s pb_act]. unfold pb_conn. cbn [s2 pb_incr pb_with_active pb_conns]. rewrite ReqRepNetP13.nth_last, ReqRepNetP13.cut_last, Au. reflexivity. }
    rewrite E3, Tok. cbn [app fold_left].
    set (k4 := link_s_greet [x01; x01] (mkLink (lk_c k0) (end_hs [IoData h] rest (lk_s k0)))). set (k5 := mkLink (lk_c k4) (end_on (lk_s k4))).
    set (v4 := v3 ++ [WAuth (length (pb_auths (z_s z))) [IoData h] true]).
    set (g4 := ((z_slog z ++ [QAccepted d]) ++ []) ++ [QAuthReply d [x01; x01]; QAuthed d [IoData h] tok; QOpen d]).
    assert (E4 : stp z3 (ZAuth (length (pb_auths (z_s z))) [IoData h] true) = mkZ (z_c z) (pub_joined (z_s z)) (mset l k5 (z_links z)) bl (mset d l (z_scids z)) (z_ccids z) (mset a (l, true) (z_tasks z)) (z_cevs z) (z_clog z) v4 g4).
    { unfold stp. cbn [z_step]. unfold z_auth. cbn [z3 z_s s3 pb_auths]. rewrite ReqRepNetP13.nth_last. rewrite Au. unfold z_link_of. cbn [z3 z_scids z_links]. rewrite mget_set_eq, Nw.
      assert (Of : pipe_offers [IoData h] (en_in (lk_s k0)) = true).
      { unfold pipe_offers. apply prefixb_ok. exists []. unfold io_data. cbn [map concat]. rewrite !app_nil_r. reflexivity. }
      rewrite Of, As. unfold z_pub. cbn [z_set_link z_s z3 pb_act]. unfold pb_auth. cbn [s3 pb_auths]. rewrite ReqRepNetP13.nth_last, As, ReqRepNetP13.cut_last. unfold pb_open.
      cbn [app z_set_link z3 z_links z_scids fold_left s_route]. unfold on_link. rewrite !mget_set_eq, !mset_mset, ?mget_set_eq, ?mset_mset. reflexivity. }
    fold h. replace (z_hello (Some tok) true) with h by (unfold h; rewrite Tok; reflexivity). rewrite E4.
    destruct (Fin (pub_joined (z_s z)) v4 g4 k5 [IoData [x01; x01]] (fst (au_encode au_client (AuthM tok))) []) as (cevs & E); [reflexivity|rewrite Tok; apply ReqRepNetP13.client_acks|].
    exists bl, cevs, v4. eexists. rewrite E. unfold g4. rewrite <- !app_assoc. split; [reflexivity|]. repeat split; reflexivity.
Qed.
End Z.
