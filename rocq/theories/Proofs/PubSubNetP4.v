(** The joint model of a subscriber and a publisher socket: the steps of the subscriber keep the invariant. *)
From Coq Require Import ZArith Permutation.
From Verif Require Import Model.Base Model.Map Model.Framed Model.WirePubSub Model.WireAuth Model.Compression Model.Handshake Model.JoinMap Model.Trie Model.PubDriver Model.SubDriver Model.Net Model.PubSubNet
  Spec.Wire Spec.Stream Spec.AuthSpec Spec.PubSpec Spec.SubSpec Spec.NetSpec2
  Proofs.BaseP Proofs.MapP Proofs.FramedP2 Proofs.PubSubP Proofs.AuthP Proofs.HandshakeP Proofs.HandshakeP2 Proofs.NetP
  Proofs.PubSubNetP Proofs.PubSubNetP2 Proofs.PubNetP Proofs.SubNetP Proofs.PubSubNetP3.
From Verif Require Proofs.SubDriverP.
Local Open Scope N_scope.

Section Z.
Variables (token : option bytes) (ingress initial : N) (D : decompressors)
          (max : option N) (buf min : N) (auth : option (bytes -> bool)) (co : option compressor).
Notation LOK := (link_ok token auth).
Notation cact := (sb_act token ingress initial D).
Notation zsub := (z_sub token ingress initial D).
Notation ZI := (ZI token ingress initial D max buf min auth co).
Notation CI := (CI token ingress initial D).
Notation LI := (LI token auth).
Notation SI := (SI max buf min auth co).

Lemma dull_links cids os ls : dull os -> fold_left (c_route cids) os ls = ls.
Proof using.
  intros Du. rewrite c_routes. apply grts_none. intros x c f Hx T. exfalso. apply c_tgt_ment in T. apply (Du x Hx c). apply T.
Qed.
Lemma dull_on c os : dull os -> wok_on c os = [] /\ received_on c os = [].
Proof using. intros Du. apply con_none. intros x Hx. apply (Du x Hx). Qed.

Lemma CI_dull c cevs clog ccids tasks ls ev c' os : CI c cevs clog ccids tasks ls -> cact c ev = (c', os) -> dull os -> sb_next c <= sb_next c' ->
  CI c' (cevs ++ [ev]) (clog ++ os) ccids tasks ls.
Proof using.
  intros (C1 & C2 & C3 & C4 & C5 & C6 & C7 & C8 & C9) A Du Le.
  split; [rewrite sub_snoc, C1, A; reflexivity|]. split; [exact C2|]. split; [exact C3|].
  split; [intros cid l H; destruct (C4 cid l H) as [X Y]; split; [lia|exact Y]|].
  split; [intros cid l k H G; destruct (C5 cid l k H G) as (X & Y & Z); destruct (dull_on cid os Du) as [W1 W2]; rewrite wok_on_app, rcv_on_app, W1, W2, !app_nil_r; auto|].
  split; [exact C6|]. split; [exact C7|]. split; [exact C8|].
  intros cid H. destruct (C9 cid) as [X Y]; [lia|]. destruct (dull_on cid os Du) as [W1 W2]. rewrite wok_on_app, rcv_on_app, W1, W2, X, Y. auto.
Qed.

Lemma sub_dull z ev : ZI z -> (forall c e, ev <> YSess c e) ->
  ZI (zsub ev z) /\ z_links (zsub ev z) = z_links z /\ z_ccids (zsub ev z) = z_ccids z /\ z_tasks (zsub ev z) = z_tasks z /\
  (sb_next (z_c (zsub ev z)) = sb_next (z_c z) \/ sb_next (z_c (zsub ev z)) = sb_next (z_c z) + 1).
Proof using.
  intros (C & L & S) Ns. unfold zsub. destruct (cact (z_c z) ev) as [c' os] eqn:A. destruct (act_dull _ _ _ _ _ _ _ _ A Ns) as [Du Nx].
  cbn [z_links z_ccids z_tasks z_c]. rewrite (dull_links _ _ _ Du). split; [|split; [reflexivity|split; [reflexivity|split; [reflexivity|destruct Nx as [Nx|[_ Nx]]; auto]]]].
  split; [|split; [exact L|exact S]]. cbn [z_c z_cevs z_clog z_ccids z_tasks z_links]. eapply CI_dull; eauto. destruct Nx as [Nx|[_ Nx]]; lia.
Qed.

Lemma end_task_inv a z : ZI z -> ZI (z_end_task a z).
Proof using.
  intros ((C1 & C2 & C3 & C4 & C5 & C6 & C7 & C8 & C9) & L & S). split; [|split; [exact L|exact S]]. cbn [z_end_task z_c z_cevs z_clog z_ccids z_tasks z_links].
  assert (Sub : forall b v, mget b (mdel a (z_tasks z)) = Some v -> mget b (z_tasks z) = Some v).
  { intros b v. rewrite mget_del. destruct (eq_dec b a); [discriminate|auto]. }
  split; [exact C1|]. split; [exact C2|]. split; [exact C3|]. split; [exact C4|]. split; [exact C5|].
  split; [intros b l ok H; eapply C6; eauto|]. split; [intros b b' l ok ok' H H'; eapply C7; eauto|]. split; [exact C8|exact C9].
Qed.

Lemma connected_inv a ok z : ZI z -> ZI (z_connected token a ok z).
Proof using.
  intros ZZ. unfold z_connected. destruct (smem a (jm_tasks (sb_tasks (z_c z)))); [|exact ZZ]. destruct (mget a (z_tasks z)) eqn:Ta; [exact ZZ|].
  destruct ZZ as ((C1 & C2 & C3 & C4 & C5 & C6 & C7 & C8 & C9) & L & (S1 & S2 & S3 & S4 & S5 & S6 & S7)).
  destruct (link_ok_new token auth ok) as [Lk Fr]. set (k0 := link_c_greet (z_hello token ok) plink0) in *.
  destruct (numbered_new (z_links z) k0 C2) as (N1 & N2 & _). fold (z_fresh z) in N1, N2. set (n := z_fresh z) in *.
  assert (Old : forall l, (exists k, mget l (z_links z) = Some k) -> l <> n) by (intros l (k & G) ->; congruence).
  assert (Get : forall l, l <> n -> mget l (mset n k0 (z_links z)) = mget l (z_links z)) by (intros l H; apply mget_set_ne; exact H).
  assert (Ex : forall l, (exists k, mget l (z_links z) = Some k) -> exists k, mget l (mset n k0 (z_links z)) = Some k) by (intros l H; rewrite (Get l (Old l H)); exact H).
  assert (NC : forall cid, mget cid (z_ccids z) <> Some n) by (intros cid H; apply C4 in H; apply (Old n (proj2 H)); reflexivity).
  assert (NS : forall cid, mget cid (z_scids z) <> Some n) by (intros cid H; apply S3 in H; apply (Old n (proj2 H)); reflexivity).
  assert (New : mget n (mset n k0 (z_links z)) = Some k0) by apply mget_set_eq.
  split; [|split]; cbn [z_c z_cevs z_clog z_ccids z_tasks z_links z_s z_sevs z_slog z_backlog z_scids].
  - split; [exact C1|]. split; [exact N1|]. split; [exact C3|].
    split; [intros cid l H; destruct (C4 cid l H) as [X Y]; auto|].
    split; [intros cid l k H G; rewrite Get in G by (apply Old; eapply C4; eauto); eapply C5; eauto|].
    split.
    { intros b l ok' H. rewrite mget_set in H. destruct (eq_dec b a) as [->|]; [inversion H; subst; split; [eauto|exact NC]|]. destruct (C6 b l ok' H) as [X Y]. auto. }
    split.
    { intros b b' l x x' H H'. rewrite mget_set in H, H'. destruct (eq_dec b a) as [->|]; destruct (eq_dec b' a) as [->|]; [reflexivity| | |eapply C7; eauto].
      - inversion H; subst. exfalso. apply C6 in H'. apply (Old _ (proj1 H')). reflexivity.
      - inversion H'; subst. exfalso. apply C6 in H. apply (Old _ (proj1 H)). reflexivity. }
    split; [|exact C9]. intros l k G H. rewrite mget_set in G. destruct (eq_dec l n) as [->|]; [inversion G; subst; reflexivity|]. eapply C8; eauto.
  - intros l k G. rewrite mget_set in G. destruct (eq_dec l n) as [->|]; [inversion G; subst; exact Lk|]. eapply L; eauto.
  - split; [exact S1|]. split; [exact S2|].
    split; [intros cid l H; destruct (S3 cid l H) as [X Y]; auto|].
    split; [intros l H; apply in_app_or in H; destruct H as [H|[<-|[]]]; [destruct (S4 l H) as [X Y]; auto|split; [eauto|exact NS]]|].
    split; [intros l k G H; rewrite mget_set in G; destruct (eq_dec l n) as [->|]; [inversion G; subst; exact Fr|eapply S5; eauto]|].
    split; [|exact S7]. intros cid l k H G. rewrite Get in G by (apply Old; eapply S3; eauto). eapply S6; eauto.
Qed.

Lemma join_inv k r order z : ZI z -> ZI (z_join token ingress initial D k r order z).
Proof using.
  intros ZZ. unfold z_join. destruct (nth_error (jm_tasks (sb_tasks (z_c z))) k) as [a|]; [|exact ZZ].
  destruct (mget a (z_tasks z)) as [[l ok]|] eqn:Ta; [|apply sub_dull; [exact ZZ|discriminate]].
  destruct (mget l (z_links z)) as [lk|] eqn:G; [|exact ZZ]. destruct r as [| |ok0 input]; try exact ZZ.
  destruct (pipe_offers input (en_in (lk_c lk))) eqn:Of; [|exact ZZ].
  destruct (auth_client token ok input) as [[[| | |] w] rest] eqn:Ac.
  - destruct (sub_dull z (YJoin k (JConn ok input) order) ZZ) as (Z1 & E1 & E2 & E3 & Nx); [discriminate|]. set (z1 := zsub (YJoin k (JConn ok input) order) z) in *.
    pose proof (end_task_inv a _ Z1) as Z2. cbn [z_end_task z_c z_cevs z_clog z_ccids z_tasks z_links z_s z_sevs z_slog z_backlog z_scids]. cbv zeta.
    destruct (sb_next (z_c z) =? sb_next (z_c z1)) eqn:Eq; [exact Z2|]. apply N.eqb_neq in Eq. assert (Nx' : sb_next (z_c z1) = sb_next (z_c z) + 1) by (destruct Nx; congruence).
    assert (Unm : forall cid, mget cid (z_ccids z) <> Some l) by (destruct ZZ as ((_ & _ & _ & _ & _ & C6 & _) & _); intros cid; exact (proj2 (C6 _ _ _ Ta) cid)).
    assert (Off : en_on (lk_c lk) = false) by (destruct ZZ as ((_ & _ & _ & _ & _ & _ & _ & C8 & _) & _); eapply C8; eauto).
    assert (Lk : LOK lk) by (destruct ZZ as (_ & L & _); eapply L; eauto).
    assert (Fr : en_items (lk_c lk) = [] /\ en_sent (lk_c lk) = []) by (destruct Lk as (_ & _ & K3 & _); specialize (K3 Off); apply noin_eq in K3; intuition).
    assert (Qs : en_sent (lk_s lk) = []) by (eapply quiet_server; [exact ZZ|exact G|apply Fr]).
    pose proof (client_hs _ _ _ _ _ _ _ Lk Off Qs Of Ac) as Lk'. set (lk' := mkLink (end_on (end_hs input rest (lk_c lk))) (lk_s lk)) in *.
    assert (Old : wok_on (sb_next (z_c z)) (z_clog z1) = [] /\ received_on (sb_next (z_c z)) (z_clog z1) = []).
    { destruct ZZ as ((_ & _ & _ & _ & _ & _ & _ & _ & C9) & _). destruct (C9 (sb_next (z_c z))) as [X Y]; [lia|]. unfold z1, z_sub. destruct (cact (z_c z) _) as [c' os] eqn:A. cbn [z_clog].
      destruct (act_dull _ _ _ _ _ _ _ _ A) as [Du _]; [discriminate|]. destruct (dull_on (sb_next (z_c z)) os Du) as [W1 W2]. rewrite wok_on_app, rcv_on_app, X, Y, W1, W2. auto. }
    set (cid := sb_next (z_c z)) in *. rewrite E1 in *.
    destruct Z1 as ((C1 & C2 & C3 & C4 & C5 & C6 & C7 & C8 & C9) & L & S). destruct Z2 as (_ & _ & _). rewrite E1 in *. rewrite E2 in *. rewrite E3 in *.
    assert (Ex : forall l', (exists k0, mget l' (z_links z) = Some k0) -> exists k0, mget l' (mset l lk' (z_links z)) = Some k0).
    { intros l' H. rewrite mget_set. destruct (eq_dec l' l); eauto. }
    split; [|split]; cbn [z_c z_cevs z_clog z_ccids z_tasks z_links z_s z_sevs z_slog z_backlog z_scids].
    + split; [exact C1|]. split; [eapply numbered_set; eauto|].
      split. { intros c c' l' H H'. rewrite mget_set in H, H'. destruct (eq_dec c cid) as [->|]; destruct (eq_dec c' cid) as [->|]; [reflexivity| | |eapply C3; eauto].
               - inversion H; subst. exfalso. eapply Unm; eauto. - inversion H'; subst. exfalso. eapply Unm; eauto. }
      split. { intros c l' H. rewrite mget_set in H. destruct (eq_dec c cid) as [->|]; [inversion H; subst; split; [lia|rewrite mget_set_eq; eauto]|]. destruct (C4 c l' H) as [X Y]. auto. }
      split. { intros c l' k' H G'. rewrite mget_set in H; rewrite mget_set in G'. destruct (eq_dec c cid) as [->|].
               - inversion H; subst. destruct (eq_dec l' l'); [|congruence]. inversion G'; subst. cbn. destruct Fr as [-> ->]. destruct Old as [-> ->]. auto.
               - destruct (eq_dec l' l) as [->|]; [exfalso; eapply Unm; eauto|]. eapply C5; eauto. }
      split. { intros b l' ok' H. rewrite mget_del in H. destruct (eq_dec b a) as [|Nb]; [discriminate|]. destruct (C6 b l' ok' H) as [X Y]. split; [auto|]. intros c. rewrite mget_set. destruct (eq_dec c cid); [|apply Y].
               intros Q; inversion Q; subst. apply Nb. eapply C7; eauto. }
      split. { intros b b' l' x x' H H'. rewrite mget_del in H, H'. destruct (eq_dec b a); [discriminate|]. destruct (eq_dec b' a); [discriminate|]. eapply C7; eauto. }
      split; [|exact C9]. intros l' k' G' H. rewrite mget_set in G'. destruct (eq_dec l' l) as [->|Nl].
      * exfalso. apply (H cid). apply mget_set_eq.
      * eapply C8; [exact G'|]. intros c Hc. apply (H c). rewrite mget_set. destruct (eq_dec c cid) as [->|]; [|exact Hc]. exfalso. destruct ZZ as ((_ & _ & _ & C4' & _) & _). apply C4' in Hc. destruct Hc as [Hc _]. unfold cid in Hc. lia.
    + intros l' k' G'. rewrite mget_set in G'. destruct (eq_dec l' l); [inversion G'; subst; exact Lk'|eapply L; eauto].
    + eapply SI_view; [exact S|]. eapply same_view_set; [exact G|reflexivity].
  - apply end_task_inv. apply sub_dull; [exact ZZ|discriminate].
  - apply end_task_inv. apply sub_dull; [exact ZZ|discriminate].
  - exact ZZ.
Qed.

(** ** Sessions *)
Lemma c_effs cid os : forall k, LOK k -> en_on (lk_c k) = true -> exists k', fold_left (geff c_tgt cid) os k = k' /\ LOK k' /\ en_on (lk_c k') = true /\
  en_sent (lk_c k') = en_sent (lk_c k) ++ wok_on cid os /\ en_items (lk_c k') = en_items (lk_c k).
Proof using.
  induction os as [|x os IH]; intros k K On; cbn [fold_left]; [exists k; rewrite app_nil_r; auto|].
  destruct (c_tgt x) as [[c f]|] eqn:T.
  - destruct x as [| | | | | | | | | |c' m [|]| | | | | | | | | | |]; try discriminate. cbn in T. inversion T; subst. unfold geff at 2. cbn [c_tgt]. cbn [wok_on flat_map]. fold (wok_on cid os). destruct (eq_dec c cid).
    + destruct (IH (link_c_send ps_encode [m] k)) as (k' & -> & A & B & C & E); [apply client_send; assumption|exact On|]. exists k'. split; [reflexivity|]. split; [exact A|]. split; [exact B|]. split; [rewrite C; cbn; rewrite <- app_assoc; reflexivity|exact E].
    + apply IH; assumption.
  - replace (geff c_tgt cid k x) with k by (unfold geff; rewrite T; reflexivity). replace (wok_on cid (x :: os)) with (wok_on cid os) by (destruct x as [| | | | | | | | | |c' m [|]| | | | | | | | | | |]; try reflexivity; discriminate). apply IH; assumption.
Qed.

Lemma subsess_inv cid e input z : ZI z -> ZI (z_subsess token ingress initial D cid e input z).
Proof using.
  intros ZZ. unfold z_subsess. destruct (mget cid (sb_conns (z_c z))) as [x|] eqn:Gx; [|exact ZZ]. destruct (sc_alive x) eqn:Al; [|exact ZZ].
  assert (Lt : cid < sb_next (z_c z)) by (destruct ZZ as ((C1 & _) & _); eapply SubDriverP.si_next; [eapply SubDriverP.run_SI; exact C1|exact Gx]).
  unfold z_link_of. destruct (mget cid (z_ccids z)) as [l|] eqn:Gc; [destruct (mget l (z_links z)) as [k|] eqn:G|].
  - destruct (pipe_offers input (en_in (lk_c k))) eqn:Of; [|exact ZZ]. destruct (ps_poll input (lk_c k)) as [r c] eqn:Po.
    destruct ZZ as ((C1 & C2 & C3 & C4 & C5 & C6 & C7 & C8 & C9) & L & S). destruct (C5 _ _ _ Gc G) as (On & Se & It).
    destruct (client_poll _ _ _ _ _ _ (L _ _ G) On Of Po) as (NP & Lk & It' & Se' & On').
    unfold zsub, z_set_link. cbn [z_c z_cevs z_clog z_ccids z_tasks z_links z_s z_sevs z_slog z_backlog z_scids].
    destruct (cact (z_c z) (YSess cid (y_with_next e (pn_of r)))) as [c' os] eqn:A. destruct (sess_ment _ _ _ _ _ _ _ _ _ A) as (M1 & M2 & M3). specialize (M3 _ Gx Al). cbn [y_with_next y_next] in M3.
    set (k1 := mkLink c (lk_s k)) in *. destruct (c_effs cid os k1 Lk On') as (k' & E' & Lk' & On2 & Se2 & It2).
    assert (GL : forall l' k0, mget l' (fold_left (c_route (z_ccids z)) os (mset l k1 (z_links z))) = Some k0 -> (l' = l /\ k0 = k') \/ (l' <> l /\ mget l' (z_links z) = Some k0)).
    { intros l' k0 H. rewrite c_routes in H. destruct (grts_get c_tgt (z_ccids z) os l' C3 (mset l k1 (z_links z))) as [H1 H2]. destruct (mapped_dec (z_ccids z) l') as [(c0 & Hc)|Hn].
      - rewrite (H1 _ Hc) in H. destruct (eq_dec l' l) as [->|Nl].
        + left. split; [reflexivity|]. rewrite mget_set_eq in H. assert (c0 = cid) by (eapply C3; eauto). subst c0. cbn [option_map] in H. congruence.
        + right. split; [exact Nl|]. rewrite mget_set_ne in H by exact Nl. destruct (mget l' (z_links z)) as [k2|]; [|discriminate]. cbn [option_map] in H. rewrite geff_none in H; [exact H|].
          intros y cy f Hy T. apply c_tgt_ment in T. rewrite (M1 _ Hy _ (proj1 T)). intros ->. congruence.
      - rewrite (H2 Hn) in H. right. destruct (eq_dec l' l) as [->|Nl]; [exfalso; eapply Hn; eauto|]. split; [exact Nl|]. rewrite mget_set_ne in H by exact Nl. exact H. }
    assert (V1 : same_view sview (z_links z) (fold_left (c_route (z_ccids z)) os (mset l k1 (z_links z)))).
    { eapply same_view_trans; [|apply c_view]. eapply same_view_set; [exact G|reflexivity]. }
    assert (Oth : forall c0, c0 <> cid -> wok_on c0 os = [] /\ received_on c0 os = []).
    { intros c0 Ne. apply con_none. intros y Hy M. apply Ne. eapply M1; eauto. }
    assert (Ex : forall l', (exists k0, mget l' (z_links z) = Some k0) -> exists k0, mget l' (fold_left (c_route (z_ccids z)) os (mset l k1 (z_links z))) = Some k0).
    { intros l' (k0 & H). destruct (view_get' _ _ _ _ _ V1 H) as (k2 & H2 & _). eauto. }
    split; [|split]; cbn [z_c z_cevs z_clog z_ccids z_tasks z_links z_s z_sevs z_slog z_backlog z_scids].
    + split; [rewrite sub_snoc, C1, A; reflexivity|]. split; [eapply numbered_view; [exact C2|exact V1]|]. split; [exact C3|]. rewrite M2.
      split; [intros c0 l' H; destruct (C4 _ _ H); auto|].
      split. { intros c0 l' k0 H G0. rewrite wok_on_app, rcv_on_app. destruct (GL _ _ G0) as [[-> ->]|[Nl G1]].
               - assert (c0 = cid) by (eapply C3; eauto). subst c0. split; [exact On2|]. rewrite Se2, It2, M3. unfold k1. cbn [lk_c]. rewrite Se', It', Se, It. split; [reflexivity|]. destruct r; reflexivity.
               - destruct (Oth c0) as [-> ->]; [intros ->; congruence|]. rewrite !app_nil_r. eapply C5; eauto. }
      split; [intros b l' ok H; destruct (C6 _ _ _ H); auto|]. split; [exact C7|].
      split; [intros l' k0 G0 Hn; destruct (GL _ _ G0) as [[-> ->]|[Nl G1]]; [exfalso; eapply Hn; eauto|eapply C8; eauto]|].
      intros c0 Hc. rewrite wok_on_app, rcv_on_app. destruct (Oth c0) as [-> ->]; [intros ->; lia|]. rewrite !app_nil_r. apply C9. exact Hc.
    + intros l' k0 G0. destruct (GL _ _ G0) as [[-> ->]|[Nl G1]]; [exact Lk'|eapply L; eauto].
    + eapply SI_view; [exact S|exact V1].
  - exfalso. destruct ZZ as ((_ & _ & _ & C4 & _) & _). destruct (C4 _ _ Gc) as (_ & k & H). congruence.
  - destruct ZZ as ((C1 & C2 & C3 & C4 & C5 & C6 & C7 & C8 & C9) & L & S).
    unfold zsub. destruct (cact (z_c z) (YSess cid e)) as [c' os] eqn:A. destruct (sess_ment _ _ _ _ _ _ _ _ _ A) as (M1 & M2 & _).
    assert (Lk : fold_left (c_route (z_ccids z)) os (z_links z) = z_links z).
    { rewrite c_routes. apply grts_none. intros y c f Hy T. apply c_tgt_ment in T. rewrite (M1 _ Hy _ (proj1 T)). exact Gc. }
    rewrite Lk. assert (Oth : forall c0, c0 <> cid -> wok_on c0 os = [] /\ received_on c0 os = []).
    { intros c0 Ne. apply con_none. intros y Hy M. apply Ne. eapply M1; eauto. }
    split; [|split; [exact L|exact S]]. cbn [z_c z_cevs z_clog z_ccids z_tasks z_links].
    split; [rewrite sub_snoc, C1, A; reflexivity|]. split; [exact C2|]. split; [exact C3|]. rewrite M2. split; [exact C4|].
    split. { intros c0 l' k0 H G0. rewrite wok_on_app, rcv_on_app. destruct (Oth c0) as [-> ->]; [intros ->; congruence|]. rewrite !app_nil_r. eapply C5; eauto. }
    split; [exact C6|]. split; [exact C7|]. split; [exact C8|].
    intros c0 Hc. rewrite wok_on_app, rcv_on_app. destruct (Oth c0) as [-> ->]; [intros ->; lia|]. rewrite !app_nil_r. apply C9. exact Hc.
Qed.
End Z.
