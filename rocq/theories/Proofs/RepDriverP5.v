(** Invariants of the reply driver, part 5: a connection's address, dead connections, the client limit, received bytes. *)
From Coq Require Import ZArith ZifyBool ZifyNat ZifyN Permutation.
From Verif Require Import Proofs.HandshakeP Model.Base Model.Map Model.WireReqRep Model.Compression Model.Stats Model.Framed Model.WireAuth
  Model.Handshake Model.ReqDriver Model.RepDriver Spec.CompressSpec Spec.RepSpec Proofs.BaseP Proofs.MapP Proofs.RepDriverP Proofs.RepDriverP2 Proofs.RepDriverP3.
Local Open Scope N_scope.

Section P.
Variables (max : option N) (min : N) (auth : option (bytes -> bool)) (co : option compressor) (D : decompressors).
Notation prim := (prim max min auth co D).

Definition open_at (s : rp) (c a : N) : Prop := exists p, mget a (rp_peers s) = Some p /\ pr_open p = true /\ pr_cid p = c.

Lemma open_upd s s' a0 p0 p' c a : rp_peers s' = mset a0 p' (rp_peers s) -> mget a0 (rp_peers s) = Some p0 -> pr_open p' = true -> pr_cid p' = pr_cid p0 ->
  open_at s c a -> open_at s' c a.
Proof using.
  intros E G O C (p & G1 & O1 & C1). unfold open_at. rewrite E. destruct (eq_dec a a0) as [->|Ne].
  - exists p'. rewrite mget_set_eq. split; [reflexivity|]. split; [exact O|congruence].
  - exists p. rewrite mget_set. destruct (eq_dec a a0); [congruence|]. auto.
Qed.
Lemma open_insert s cid addr c a : open_at s c a -> open_at (fst (rp_insert s cid addr)) c a \/ In c (ended (snd (rp_insert s cid addr))).
Proof using.
  intros (p & G & O & C). cbn [rp_insert fst snd]. destruct (eq_dec a addr) as [->|Ne].
  - right. rewrite G, O. cbn. left. exact C.
  - left. exists p. cbn [rp_with_peers rp_peers]. rewrite mget_set. destruct (eq_dec a addr); [congruence|]. auto.
Qed.

(** A connection that had an effect on address [a] is still open there or has ended. *)
Definition home (L : list rout) (s : rp) : Prop :=
  forall c a r m, In (RIncoming c a r m) L -> In c (ended L) \/ open_at s c a.

Lemma home_step L s o s' : home L s -> none_of is_inc o -> (forall c a, open_at s c a -> open_at s' c a \/ In c (ended o)) -> home (L ++ o) s'.
Proof using.
  intros H No K c a r m X. rewrite ended_app. apply (in_none is_inc) in X; [|exact No|reflexivity]. destruct (H _ _ _ _ X) as [Y|Y]; [left; apply in_or_app; auto|].
  destruct (K _ _ Y) as [Z|Z]; [right; exact Z|left; apply in_or_app; right; exact Z].
Qed.
Lemma home_prim L s o s' : home L s -> prim s o s' -> home (L ++ o) s'.
Proof using.
  intros I P. prims P; try (eapply home_step; [exact I|solve [nolog]|intros c1 a1 X; left; exact X]; fail).
  - eapply home_step; [exact I|nolog|]. intros c1 a1 X. left. eapply (open_upd s _ a p); [reflexivity|exact G|reflexivity|reflexivity|exact X].
  - eapply home_step; [exact I|nolog|]. intros c1 a1 X. left. eapply (open_upd s _ a p); [reflexivity|exact G|reflexivity|reflexivity|exact X].
  - eapply home_step; [exact I|nolog|]. intros c1 a1 X. left. eapply (open_upd s _ a p); [reflexivity|exact G|reflexivity|reflexivity|exact X].
  - eapply home_step; [exact I|nolog|]. intros c1 a1 X. left. eapply (open_upd s _ a p); [reflexivity|exact G|reflexivity|reflexivity|exact X].
  - eapply home_step; [exact I|nolog|]. intros c1 a1 X. left. eapply (open_upd s _ a p); [reflexivity|exact G|reflexivity|reflexivity|exact X].
  - eapply home_step; [exact I|nolog|]. intros c1 a1 (q & X1 & X2 & X3). destruct (eq_dec a1 a) as [->|Ne].
    + right. left. congruence.
    + left. exists q. cbn [rp_decr rp_with_active upd rp_with_peers rp_peers]. rewrite mget_set. destruct (eq_dec a1 a); [congruence|auto].
  - set (s1 := upd s a _). destruct (on_request_frame D s1 a (pr_cid p) m) as (_ & _ & _ & J4 & _ & _ & _ & _ & _ & _ & J11).
    set (z := rp_on_request D s1 a (pr_cid p) m) in *. change (rp_next_rid s1) with (rp_next_rid s) in *.
    assert (K : forall c1 a1, open_at s c1 a1 -> open_at (fst z) c1 a1).
    { intros c1 a1 X. unfold open_at. rewrite J4. eapply (open_upd s s1 a p); [reflexivity|exact G|reflexivity|reflexivity|exact X]. }
    intros c1 a1 r1 m1 X. rewrite ended_app. apply in_app_or in X. destruct X as [X|X].
    + destruct (I _ _ _ _ X) as [Y|Y]; [left; apply in_or_app; auto|right; apply K, Y].
    + right. assert (Y : RIncoming c1 a1 r1 m1 = RIncoming (pr_cid p) a (rp_next_rid s) m).
      { destruct J11 as [(q & J & _)|(J & _)]; rewrite J in X; destruct X as [X|[X|[]]]; [symmetry; exact X|discriminate|symmetry; exact X|discriminate]. }
      inversion Y; subst. apply K. exists p. auto.
  - eapply home_step; [exact I|nolog|]. intros c1 a1 (q & X1 & X2 & X3). left. exists q. cbn [rp_with_peers rp_peers]. rewrite mget_del. destruct (eq_dec a1 a); [congruence|auto].
  - eapply home_step; [exact I|noins|]. intros c1 a1 X. rewrite ended_app. cbn [app ended flat_map]. apply (open_insert (drop_auth s k)). exact X.
  - eapply home_step; [exact I|noins|]. intros c1 a1 X. apply (open_insert (drop_conn s k)). exact X.
  - eapply home_step; [exact I|apply drop_log; reflexivity|]. intros c1 a1 X. left. exact X.
Qed.
Lemma run_home evs s L : rp_run max min auth co D rp_init evs = (s, L) -> home L s.
Proof using. apply (run_inv max min auth co D home home_prim). intros ? ? ? ? []. Qed.

(** ** Dead connections stay silent *)
Definition dead (L : list rout) : Prop :=
  forall before x after c, L = before ++ x :: after -> acts_on c x -> ~ In c (ended before).
Lemma dead_step L o : dead L -> (forall b x a c, o = b ++ x :: a -> acts_on c x -> ~ In c (ended L) /\ ~ In c (ended b)) -> dead (L ++ o).
Proof using.
  intros H K before x after c E A. apply split_app_cons in E. destruct E as [(a' & E & _)|(b' & -> & E)]; [eapply H; eauto|].
  destruct (K _ _ _ _ E A) as [K1 K2]. rewrite ended_app. intros X. apply in_app_or in X. tauto.
Qed.
Lemma inv1_disj L s c : inv1 L s -> In c (connections s) -> ~ In c (ended L).
Proof using.
  intros (_ & N & _ & P & _) X Y. apply (Permutation_NoDup P) in N. eapply NoDup_app_dj; eauto.
Qed.
Lemma inv1_fresh L s c : inv1 L s -> rp_next_cid s <= c -> ~ In c (ended L).
Proof using.
  intros (_ & _ & B & P & _) X Y. assert (In c (admitted L)) as Z by (eapply Permutation_in; [symmetry; exact P|apply in_or_app; right; exact Y]). apply B in Z. lia.
Qed.
Lemma dead_none L o : dead L -> (forall x c, In x o -> ~ acts_on c x) -> dead (L ++ o).
Proof using. intros H K. apply dead_step; [exact H|]. intros b x a c E A. exfalso. eapply K; [|exact A]. rewrite E. apply in_or_app; right; left; reflexivity. Qed.
Lemma dead_head L c x o : dead L -> ~ In c (ended L) -> (forall c', acts_on c' x -> c' = c) -> (forall y c', In y o -> ~ acts_on c' y) -> dead (L ++ x :: o).
Proof using.
  intros H N A0 K. apply dead_step; [exact H|]. intros b y a c' E A. destruct b as [|z b]; inversion E; subst; [|exfalso; eapply K; [|exact A]; apply in_or_app; right; left; reflexivity].
  apply A0 in A. subst. split; [exact N|intros []].
Qed.
Ltac noact := let x := fresh in let c := fresh in let H := fresh in intros x c H; cbn [In app] in H; repeat (destruct H as [<-|H]; [cbn; tauto|]); try destruct H.
Lemma nth_conn s k cid : nth_error (rp_conns s) k = Some cid -> In cid (connections s).
Proof using. intros H. apply nth_error_In in H. unfold connections. apply in_or_app. left; exact H. Qed.
Lemma nth_auth s k cid addr : nth_error (rp_auths s) k = Some (cid, addr) -> In cid (connections s).
Proof using. intros H. apply nth_error_In in H. unfold connections. apply in_or_app. right. apply in_or_app. left. apply (in_map fst) in H. exact H. Qed.
Lemma insert_act s cid addr x c : In x (snd (rp_insert s cid addr)) -> acts_on c x -> c = cid /\ x = ROpen cid addr.
Proof using. intros H A. apply insert_log in H. destruct H as [-> | (p & _ & _ & ->)]; cbn in A; [subst; auto|destruct A]. Qed.

Lemma dead_prim L s o s' : inv1 L s -> dead L -> prim s o s' -> dead (L ++ o).
Proof using.
  intros I H P.
  prims P; try (apply dead_none; [exact H|solve [noact]]).
  - eapply (dead_head _ (pr_cid p)); [exact H|eapply inv1_disj; [exact I|eapply open_conn; eauto]|intros c' A; cbn in A; congruence|intros ? ? []].
  - eapply (dead_head _ (pr_cid p)); [exact H|eapply inv1_disj; [exact I|eapply open_conn; eauto]|intros c' A; cbn in A; congruence|intros ? ? []].
  - set (s1 := upd s a _). destruct (on_request_frame D s1 a (pr_cid p) m) as (_ & _ & _ & _ & _ & _ & _ & _ & _ & _ & J11).
    assert (X : exists y, snd (rp_on_request D s1 a (pr_cid p) m) = RIncoming (pr_cid p) a (rp_next_rid s) m :: [y] /\ forall c, ~ acts_on c y).
    { destruct J11 as [(q & -> & _)|(-> & _)]; eexists; split; [reflexivity|cbn; tauto|reflexivity|cbn; tauto]. }
    destruct X as (y & -> & Y). eapply (dead_head _ (pr_cid p)); [exact H|eapply inv1_disj; [exact I|eapply open_conn; eauto]|intros c' A; cbn in A; congruence|].
    intros ? c' [<-|[]]. apply Y.
  - apply dead_step; [exact H|]. intros b0 x a0 c E A.
    assert (Hin : In x ([RAuthReply cid w; RAuthed cid i id] ++ snd (rp_insert (drop_auth s k) cid addr))) by (rewrite E; apply in_or_app; right; left; reflexivity).
    assert (c = cid) as ->. { apply in_app_or in Hin. destruct Hin as [[X|[X|[]]]|X]; [subst; cbn in A; congruence|subst; cbn in A; congruence|]. eapply insert_act in X; [apply X|exact A]. }
    assert (Dj : ~ In cid (ended L)) by (eapply inv1_disj; [exact I|eapply nth_auth; eauto]). split; [exact Dj|].
    (* the acts come before the RReplaced in the insertion *)
    cbn [app rp_insert snd] in E. destruct b0 as [|y0 [|y1 [|y2 b0]]].
    + intros [].
    + inversion E; subst. intros [].
    + inversion E; subst. intros [].
    + exfalso. inversion E as [[E1 E2 E3 E4]]. subst.
      destruct (mget addr (rp_peers s)) as [p|]; [destruct (pr_open p)|]; [|destruct b0; discriminate..].
      destruct b0 as [|? [|? ?]]; inversion E4; subst; cbn in A; contradiction.
  - eapply (dead_head _ cid); [exact H|eapply inv1_disj; [exact I|eapply nth_auth; eauto]|intros c' A; cbn in A; congruence|]. intros y c' [<-|[]]. cbn. tauto.
  - cbn [rp_insert snd]. eapply (dead_head _ cid); [exact H|eapply inv1_disj; [exact I|eapply nth_conn; eauto]|intros c' A; cbn in A; congruence|].
    intros y c' Hy. destruct (mget addr (rp_peers (drop_conn s k))) as [p|]; [destruct (pr_open p)|]; [destruct Hy as [<-|[]]; cbn; tauto|destruct Hy..].
  - eapply (dead_head _ (rp_next_cid s)); [exact H|eapply inv1_fresh; [exact I|lia]|intros c' A; cbn in A; congruence|intros ? ? []].
  - apply dead_none; [exact H|]. intros x c [<-|Hx]; [cbn; tauto|]. apply in_map_iff in Hx. destruct Hx as (q & <- & _). cbn. tauto.
Qed.
Lemma run_dead evs s L : rp_run max min auth co D rp_init evs = (s, L) -> dead L.
Proof using.
  intros H. apply (run_inv max min auth co D (fun L s => inv1 L s /\ dead L)) in H; [apply H| |].
  - intros L0 s0 o s' [I1 I2] P. split; [eapply inv1_prim; eauto|eapply dead_prim; eauto].
  - split; [apply (run_inv1 max min auth co D []); reflexivity|]. intros b x a c E. destruct b; discriminate.
Qed.

(** ** The limit *)
Definition gone (l : list rout) : list N := flat_map (fun x => match x with RGone c => [c] | _ => [] end) l.
Lemma gone_app a b : gone (a ++ b) = gone a ++ gone b. Proof using. apply flat_map_app. Qed.
Lemma ended_split l : Permutation (ended l) (gone l ++ leaked l).
Proof using.
  induction l as [|x l IH]; [constructor|]. destruct x; cbn; try exact IH; try (constructor; exact IH); try (apply Permutation_cons_app; exact IH).
Qed.
Lemma balance L s : inv1 L s -> blen (admitted L) = blen (connections s) + blen (leaked L) + blen (gone L).
Proof using.
  intros (_ & _ & _ & P & _). rewrite (blen_perm _ _ P), blen_app, (blen_perm _ _ (ended_split L)), blen_app. lia.
Qed.
Definition is_acc (x : rout) := match x with RAccepted _ => true | _ => false end.
Lemma none_acc o : none_of is_acc o -> admitted o = [].
Proof using. intros X. induction o as [|x o IH]; [reflexivity|]. assert (H : admitted o = []) by (apply IH; intros y Hy; apply X; right; exact Hy). pose proof (X x (or_introl eq_refl)). destruct x; try discriminate; exact H. Qed.
Definition cap (m : N) (L : list rout) : Prop := blen (admitted L) <= m + blen (gone L).
Lemma cap_prim lim L s o s' : max = Some lim -> lim < 2 ^ 64 -> inv1 L s -> cap lim L -> prim s o s' -> cap lim (L ++ o).
Proof using.
  intros Hlim Hlt I C P. unfold cap in *. rewrite admitted_app, gone_app, !blen_app.
  assert (K : none_of is_acc o -> blen (admitted L) + blen (admitted o) <= lim + (blen (gone L) + blen (gone o))).
  { intros No. rewrite (none_acc o No). cbn. lia. }
  prims P; try (apply K; first [solve [nolog]|noins]).
  - apply K. set (s1 := upd s a _). destruct (on_request_frame D s1 a (pr_cid p) m) as (_ & _ & _ & _ & _ & _ & _ & _ & _ & _ & J11).
    destruct J11 as [(q & -> & _)|(-> & _)]; nolog.
  - clear K. specialize (Hm lim Hlim). destruct I as (I1 & I2 & I3 & I4 & I5). pose proof (balance L s (conj I1 (conj I2 (conj I3 (conj I4 I5))))) as B.
    rewrite I5 in Hm. unfold wrap64 in Hm. rewrite N.mod_small in Hm by lia. cbn [admitted gone flat_map app]. change (blen [rp_next_cid s]) with 1. change (blen []) with 0. lia.
  - apply K, drop_log; reflexivity.
Qed.
Lemma run_cap m evs s L : max = Some m -> m < 2 ^ 64 -> rp_run max min auth co D rp_init evs = (s, L) -> inv1 L s /\ cap m L.
Proof using.
  intros Hm Hlt. apply (run_inv max min auth co D (fun L s => inv1 L s /\ cap m L)).
  - intros L0 s0 o s' [I1 I2] P. split; [eapply inv1_prim; eauto|eapply cap_prim; eauto].
  - split; [apply (run_inv1 max min auth co D []); reflexivity|]. unfold cap. cbn. lia.
Qed.

(** ** A yielded request is announced right after its frame; received bytes *)
Definition yord (L : list rout) (s : rp) : Prop :=
  (forall before q after, L = before ++ RYield q :: after -> exists b c m, before = b ++ [RIncoming c (q_source q) (q_rid q) m] /\
     try_decompress D (rr_ctype m) (rr_payload m) = Some (q_msg q)) /\
  rp_rx s = fold_right (fun x n => (let '(_, _, m) := x in if try_decompress D (rr_ctype m) (rr_payload m) then blen (rr_payload m) else 0) + n) 0 (incoming L).
Definition is_iy (x : rout) := match x with RIncoming _ _ _ _ | RYield _ => true | _ => false end.
Lemma none_iy o : none_of is_iy o -> incoming o = [].
Proof using. intros X. induction o as [|x o IH]; [reflexivity|]. assert (H : incoming o = []) by (apply IH; intros y Hy; apply X; right; exact Hy). pose proof (X x (or_introl eq_refl)). destruct x; try discriminate; exact H. Qed.
Lemma yord_same L s o s' : yord L s -> none_of is_iy o -> rp_rx s' = rp_rx s -> yord (L ++ o) s'.
Proof using.
  intros [H1 H2] No E. split; [|rewrite incoming_app, (none_iy o No), app_nil_r, E; exact H2].
  intros before q after X. apply split_app_cons in X. destruct X as [(a' & X & _)|(b' & -> & X)]; [eapply H1; eauto|].
  exfalso. assert (Y : In (RYield q) o) by (rewrite X; apply in_or_app; right; left; reflexivity). apply No in Y. discriminate.
Qed.
Lemma fold_incoming_app (f : N * N * rr_msg -> N) a b : fold_right (fun x n => f x + n) 0 (a ++ b) = fold_right (fun x n => f x + n) 0 a + fold_right (fun x n => f x + n) 0 b.
Proof using. induction a as [|x a IH]; cbn [fold_right app]; [reflexivity|]. rewrite IH. lia. Qed.
Lemma yord_prim L s o s' : yord L s -> prim s o s' -> yord (L ++ o) s'.
Proof using.
  intros I P. prims P; try (eapply yord_same; [exact I|first [solve [nolog]|noins]|reflexivity]).
  - destruct I as [H1 H2]. set (s1 := upd s a _). unfold rp_on_request. change (rp_rx s1) with (rp_rx s). change (rp_next_rid s1) with (rp_next_rid s).
    assert (Fd : forall y rx' z, incoming [y] = [] -> rx' = rp_rx s + (if try_decompress D (rr_ctype m) (rr_payload m) then blen (rr_payload m) else 0) ->
       rp_rx z = rx' -> rp_rx z = fold_right (fun x n => (let '(_, _, m) := x in if try_decompress D (rr_ctype m) (rr_payload m) then blen (rr_payload m) else 0) + n) 0
         (incoming (L ++ [RIncoming (pr_cid p) a (rp_next_rid s) m; y]))).
    { intros y rx' z Hy E1 E2. rewrite incoming_app, fold_incoming_app, <- H2, E2, E1. f_equal. change [RIncoming (pr_cid p) a (rp_next_rid s) m; y] with ([RIncoming (pr_cid p) a (rp_next_rid s) m] ++ [y]).
      rewrite incoming_app, Hy, app_nil_r. cbn [incoming flat_map app fold_right]. lia. }
    assert (Nl : forall rx' r0, (forall before q after, L ++ [RIncoming (pr_cid p) a (rp_next_rid s) m; RLost r0] = before ++ RYield q :: after ->
        exists b c m, before = b ++ [RIncoming c (q_source q) (q_rid q) m] /\ try_decompress D (rr_ctype m) (rr_payload m) = Some (q_msg q)) /\ rx' = rx' :> N).
    { intros rx' r0. split; [|reflexivity]. intros before q after X. apply split_app_cons in X. destruct X as [(a' & X & _)|(b' & -> & X)]; [eapply H1; eauto|].
      destruct b' as [|w [|w' [|? ?]]]; discriminate. }
    destruct (try_decompress D (rr_ctype m) (rr_payload m)) as [x|] eqn:E.
    + destruct (rp_dropped s1 || (rep_chan_cap <=? blen (rp_chan s1))); cbn [fst snd].
      * split; [apply (proj1 (Nl 0 (rp_next_rid s)))|]. eapply Fd; [reflexivity|reflexivity|reflexivity].
      * split; [|eapply Fd; [reflexivity|reflexivity|reflexivity]].
        intros before q after X. apply split_app_cons in X. destruct X as [(a' & X & _)|(b' & -> & X)]; [eapply H1; eauto|].
        destruct b' as [|w [|w' [|? ?]]]; inversion X; subst. exists L, (pr_cid p), m. split; [reflexivity|exact E].
    + cbn [fst snd]. split; [apply (proj1 (Nl 0 (rp_next_rid s)))|]. eapply Fd; [reflexivity| |reflexivity]. rewrite N.add_0_r. reflexivity.
  - eapply yord_same; [exact I|apply drop_log; reflexivity|reflexivity].
Qed.
Lemma run_yord evs s L : rp_run max min auth co D rp_init evs = (s, L) -> yord L s.
Proof using.
  apply (run_inv max min auth co D yord yord_prim). split; [|reflexivity]. intros b q a E. destruct b; discriminate.
Qed.

(** ** Request numbers are fresh *)
Definition rids (L : list rout) : list N := map (fun x => snd (fst x)) (incoming L).
Definition ridsok (L : list rout) (s : rp) : Prop := NoDup (rids L) /\ forall r, In r (rids L) -> r < rp_next_rid s.
Lemma ridsok_same L s o s' : ridsok L s -> none_of is_iy o -> rp_next_rid s' = rp_next_rid s -> ridsok (L ++ o) s'.
Proof using. intros H No E. unfold ridsok, rids in *. rewrite incoming_app, (none_iy o No), app_nil_r, E. exact H. Qed.
Lemma ridsok_prim L s o s' : ridsok L s -> prim s o s' -> ridsok (L ++ o) s'.
Proof using.
  intros I P. prims P; try (eapply ridsok_same; [exact I|first [solve [nolog]|noins]|reflexivity]).
  - destruct I as [I1 I2]. set (s1 := upd s a _). destruct (on_request_frame D s1 a (pr_cid p) m) as (_ & _ & _ & _ & _ & J6 & _ & _ & _ & _ & J11).
    assert (X : incoming (snd (rp_on_request D s1 a (pr_cid p) m)) = [(a, rp_next_rid s, m)]) by (destruct J11 as [(q & -> & _)|(-> & _)]; reflexivity).
    unfold ridsok, rids in *. rewrite J6, incoming_app, X, map_app. cbn [map fst snd]. change (rp_next_rid s1) with (rp_next_rid s). split.
    + apply NoDup_snoc; [exact I1|]. intros Y. apply I2 in Y. lia.
    + intros r Y. apply in_app_or in Y. destruct Y as [Y|[<-|[]]]; [apply I2 in Y; lia|lia].
  - eapply ridsok_same; [exact I|apply drop_log; reflexivity|reflexivity].
Qed.
Lemma run_rids evs s L : rp_run max min auth co D rp_init evs = (s, L) -> NoDup (map (fun x => snd (fst x)) (incoming L)).
Proof using. intros H. apply (run_inv max min auth co D ridsok ridsok_prim) in H; [apply H|]. split; [constructor|intros r []]. Qed.

(** ** Handshake replies *)
Definition reps (L : list rout) : Prop :=
  forall before c w after, L = before ++ RAuthReply c w :: after ->
    (exists input id more, after = RAuthed c input id :: more /\ w = [x01; x01]) \/
    (exists more, after = RGone c :: more /\ (w = [] \/ w = [x01; x00])).
Definition is_ar (x : rout) := match x with RAuthReply _ _ => true | _ => false end.
Lemma reps_none L o : reps L -> none_of is_ar o -> reps (L ++ o).
Proof using.
  intros H No before c w after X. apply split_app_cons in X. destruct X as [(a' & X & ->)|(b' & -> & X)].
  - destruct (H _ _ _ _ X) as [(i & id & more & -> & ->)|(more & -> & W)]; [left; exists i, id, (more ++ o); auto|right; exists (more ++ o); auto].
  - exfalso. assert (Y : In (RAuthReply c w) o) by (rewrite X; apply in_or_app; right; left; reflexivity). apply No in Y. discriminate.
Qed.
Lemma reps_head L c w x o : reps L -> none_of is_ar (x :: o) ->
  ((exists input id, x = RAuthed c input id /\ w = [x01; x01]) \/ (x = RGone c /\ (w = [] \/ w = [x01; x00]))) -> reps (L ++ RAuthReply c w :: x :: o).
Proof using.
  intros H No K before c' w' after X. apply split_app_cons in X. destruct X as [(a' & X & ->)|(b' & -> & X)].
  - destruct (H _ _ _ _ X) as [(i & id & more & -> & ->)|(more & -> & W)]; [left; eexists i, id, _; split; [reflexivity|reflexivity]|right; eexists; split; [reflexivity|exact W]].
  - destruct b' as [|y b']; inversion X; subst.
    + destruct K as [(i & id & -> & ->)|(-> & W)]; [left; exists i, id, o; auto|right; exists o; auto].
    + exfalso. assert (Y : In (RAuthReply c' w') (x :: o)) by (rewrite H2; apply in_or_app; right; left; reflexivity). apply No in Y. discriminate.
Qed.
Lemma reps_prim L s o s' : reps L -> prim s o s' -> reps (L ++ o).
Proof using.
  intros I P. prims P; try (apply reps_none; [exact I|first [solve [nolog]|noins]]).
  - apply reps_none; [exact I|]. set (s1 := upd s a _). destruct (on_request_frame D s1 a (pr_cid p) m) as (_ & _ & _ & _ & _ & _ & _ & _ & _ & _ & J11).
    destruct J11 as [(q & -> & _)|(-> & _)]; nolog.
  - cbn [app]. apply reps_head; [exact I| |].
    + intros x [<-|X]; [reflexivity|]. apply insert_log in X. destruct X as [-> | (? & _ & _ & ->)]; reflexivity.
    + left. exists i, id. split; [reflexivity|]. apply auth_server_ok in As. apply As.
  - apply reps_head; [exact I|nolog|]. right. split; [reflexivity|]. eapply auth_server_err; eauto.
  - apply reps_none; [exact I|apply drop_log; reflexivity].
Qed.
Lemma run_reps evs s L : rp_run max min auth co D rp_init evs = (s, L) -> reps L.
Proof using. apply (run_inv max min auth co D (fun L _ => reps L)); [intros; eapply reps_prim; eauto|]. intros b c w a E. destruct b; discriminate. Qed.

(** ** Everybody has the same address *)
Definition onekey (a0 : N) (s : rp) : Prop :=
  (forall a p, mget a (rp_peers s) = Some p -> a = a0) /\ (forall c a, In (c, a) (rp_auths s) -> a = a0).
Definition conn_from (a0 : N) (ev : rp_event) : Prop :=
  match ev with VConn _ (Some (Some a)) => a = a0 | _ => True end.
Lemma onekey_act a0 s ev s' o : onekey a0 s -> conn_from a0 ev -> rp_act max min auth co D s ev = (s', o) -> onekey a0 s'.
Proof using.
  intros [K1 K2] C.
  assert (Same : forall s2, rp_peers s2 = rp_peers s -> rp_auths s2 = rp_auths s -> onekey a0 s2) by (intros s2 E1 E2; split; rewrite ?E1, ?E2; assumption).
  assert (Ins : forall s2 c a, rp_peers s2 = rp_peers s -> (forall c' a', In (c', a') (rp_auths s2) -> a' = a0) -> a = a0 -> onekey a0 (fst (rp_insert s2 c a))).
  { intros s2 c a E1 E2 ->. split; [|exact E2]. cbn [rp_insert fst rp_with_peers rp_peers]. intros b p. rewrite mget_set. destruct (eq_dec b a0); [auto|]. rewrite E1. apply K1. }
  destruct ev as [a e|k i b|k r| | |rid x|rid|]; cbn [rp_act].
  - destruct (rp_peer min co D a e s) as [[s1 o1] st] eqn:E. intros H; inversion H; subst. rewrite rp_peer_eq in E.
    destruct (mget a (rp_peers s)) as [p|] eqn:G; [|inversion E; subst; split; assumption]. destruct (pr_open p).
    2:{ inversion E; subst. split; [|exact K2]. cbn [rp_with_peers rp_peers]. intros b q. rewrite mget_del. destruct (eq_dec b a); [discriminate|apply K1]. }
    unfold peer_handle in E. destruct (peer_iter min co e (rp_os s) (rp_next_rid s) p (rp_tx s) (rp_failed s)) as [[[[p' tx] fl] o2] r].
    assert (Up : forall q tx fl, onekey a0 (with_stats (upd s a q) tx fl)).
    { intros q tx0 fl0. split; [|exact K2]. cbn [with_stats upd rp_with_peers rp_peers]. intros b q'. rewrite mget_set. destruct (eq_dec b a) as [->|]; [intros _; eapply K1; eauto|apply K1]. }
    destruct r.
    + inversion E; subst. apply Up.
    + set (s1 := with_stats (upd s a p') tx fl) in *. destruct (on_request_frame D s1 a (pr_cid p) m) as (_ & _ & J3 & J4 & _).
      destruct (rp_on_request D s1 a (pr_cid p) m) as [s2 o3]. cbn [fst] in *. inversion E; subst. destruct (Up p' tx fl) as [U1 U2]. split; rewrite ?J3, ?J4; assumption.
    + inversion E; subst. apply Up.
    + inversion E; subst. apply (Up (mkPeer (pr_cid p') [] [] false false) tx fl).
    + inversion E; subst. apply Up.
  - unfold rp_auth. destruct (nth_error (rp_auths s) k) as [[cid addr]|] eqn:Nt; [|intros H; inversion H; subst; split; assumption].
    destruct auth as [au|]; [|intros H; inversion H; subst; split; assumption].
    assert (K3 : forall c a, In (c, a) (firstn k (rp_auths s) ++ skipn (S k) (rp_auths s)) -> a = a0) by (intros c a X; apply in_remove_nth in X; eauto).
    destruct (auth_server au b i) as [[[id| | |] w] rest].
    + match goal with |- context [rp_insert ?z cid addr] => pose proof (Ins z cid addr eq_refl K3 (K2 _ _ (nth_error_In _ _ Nt))) as X; destruct (rp_insert z cid addr) end.
      intros H; inversion H; subst. exact X.
    + intros H; injection H as <- _. split; assumption.
    + intros H; injection H as <- _. split; assumption.
    + intros H; inversion H; subst. split; assumption.
  - unfold rp_conn. destruct (nth_error (rp_conns s) k) as [cid|] eqn:Nt; [|intros H; inversion H; subst; split; assumption].
    destruct r as [[addr|]|]; [|intros H; injection H as <- _; split; assumption..]. cbn in C. subst addr. destruct auth as [au|].
    + intros H; injection H as <- _. split; [exact K1|]. cbn [rp_auths]. intros c a X. apply in_app_or in X. destruct X as [X|[X|[]]]; [eauto|congruence].
    + match goal with |- context [rp_insert ?z cid a0] => pose proof (Ins z cid a0 eq_refl K2 eq_refl) as X; destruct (rp_insert z cid a0) end.
      intros H; inversion H; subst. exact X.
  - unfold rp_accept. destruct (match max with Some m => m <=? rp_active s | None => false end); intros H; inversion H; subst; split; assumption.
  - destruct (rp_chan s); intros H; inversion H; subst; split; assumption.
  - destruct (smem rid (rp_held s)); [destruct (os_receiver s rid)|]; intros H; inversion H; subst; split; assumption.
  - destruct (smem rid (rp_held s)); intros H; inversion H; subst; split; assumption.
  - intros H; inversion H; subst; split; assumption.
Qed.
Lemma onekey_run a0 : forall evs s s' o, onekey a0 s -> (forall ev, In ev evs -> conn_from a0 ev) -> rp_run max min auth co D s evs = (s', o) -> onekey a0 s'.
Proof using.
  induction evs as [|ev evs IH]; intros s s' o K C H; cbn [rp_run] in H; [inversion H; subst; exact K|].
  destruct (rp_act max min auth co D s ev) as [s1 o1] eqn:E. destruct (rp_run max min auth co D s1 evs) as [s2 o2] eqn:E2. inversion H; subst.
  eapply IH; [|intros; apply C; right; assumption|exact E2]. eapply onekey_act; [exact K|apply C; left; reflexivity|exact E].
Qed.
Lemma onekey_served a0 s : NoDup (mkeys (rp_peers s)) -> onekey a0 s -> (served s <= 1)%nat.
Proof using.
  intros N [K _]. unfold served. revert N K. generalize (rp_peers s). intros l N K. assert (L : (length l <= 1)%nat).
  { unfold mkeys in N. destruct l as [|[a p] [|[b q] l]]; [cbn; lia|cbn; lia|]. exfalso.
    cbn [map fst] in N. inversion N as [|? ? N1 N2]; subst. apply N1. left.
    assert (a = a0) by (apply (K a p); cbn; destruct (eq_dec a a); congruence). subst a.
    destruct (eq_dec b a0) as [->|Ne]; [reflexivity|]. apply (K b q). cbn. destruct (eq_dec b a0); [congruence|]. destruct (eq_dec b b); congruence. }
  destruct l as [|x [|y l]]; cbn in *; [lia|destruct (pr_open (snd x)); cbn; lia|lia].
Qed.

(** ** An event leaves the other clients alone *)
Definition concerns (a : N) (ev : rp_event) : Prop := match ev with VPeer b _ => a = b | _ => False end.
Lemma act_other s ev s' o a p : rp_act max min auth co D s ev = (s', o) -> mget a (rp_peers s) = Some p -> ~ concerns a ev ->
  (forall c, ~ In (ROpen c a) o) -> mget a (rp_peers s') = Some p.
Proof using.
  intros H G Nc No.
  assert (Ins : forall s2 c b pre, rp_peers s2 = rp_peers s -> (forall c', ~ In (ROpen c' a) (pre ++ snd (rp_insert s2 c b))) -> mget a (rp_peers (fst (rp_insert s2 c b))) = Some p).
  { intros s2 c b pre E1 K. cbn [rp_insert fst rp_with_peers rp_peers]. rewrite mget_set, E1. destruct (eq_dec a b) as [->|]; [|exact G]. exfalso.
    apply (K c). apply in_or_app; right. left; reflexivity. }
  destruct ev as [b e|k i b|k r| | |rid x|rid|]; cbn [rp_act concerns] in *.
  - destruct (rp_peer min co D b e s) as [[s1 o1] st] eqn:E. inversion H; subst. rewrite rp_peer_eq in E.
    destruct (mget b (rp_peers s)) as [q|] eqn:Gb; [|inversion E; subst; exact G]. destruct (pr_open q).
    2:{ inversion E; subst. cbn [rp_with_peers rp_peers]. rewrite mget_del. destruct (eq_dec a b); [congruence|exact G]. }
    unfold peer_handle in E. destruct (peer_iter min co e (rp_os s) (rp_next_rid s) q (rp_tx s) (rp_failed s)) as [[[[p' tx] fl] o2] r].
    assert (Up : forall q tx fl, mget a (rp_peers (with_stats (upd s b q) tx fl)) = Some p).
    { intros q0 tx0 fl0. cbn [with_stats upd rp_with_peers rp_peers]. rewrite mget_set. destruct (eq_dec a b); [congruence|exact G]. }
    destruct r.
    + inversion E; subst. apply Up.
    + set (s1 := with_stats (upd s b p') tx fl) in *. destruct (on_request_frame D s1 b (pr_cid q) m) as (_ & _ & J3 & J4 & _).
      destruct (rp_on_request D s1 b (pr_cid q) m) as [s2 o3]. cbn [fst] in *. inversion E; subst. rewrite J4. apply Up.
    + inversion E; subst. apply Up.
    + inversion E; subst. apply (Up (mkPeer (pr_cid p') [] [] false false) tx fl).
    + inversion E; subst. apply Up.
  - unfold rp_auth in H. destruct (nth_error (rp_auths s) k) as [[cid addr]|] eqn:Nt; [|inversion H; subst; exact G].
    destruct auth as [au|]; [|inversion H; subst; exact G].
    destruct (auth_server au b i) as [[[id| | |] w] rest].
    + match type of H with context [rp_insert ?z cid addr] => pose proof (Ins z cid addr [RAuthReply cid w; RAuthed cid i id] eq_refl) as X; destruct (rp_insert z cid addr) end.
      inversion H; subst. apply X. exact No.
    + injection H as <- _. exact G.
    + injection H as <- _. exact G.
    + inversion H; subst. exact G.
  - unfold rp_conn in H. destruct (nth_error (rp_conns s) k) as [cid|] eqn:Nt; [|inversion H; subst; exact G].
    destruct r as [[addr|]|]; [|injection H as <- _; exact G..]. destruct auth as [au|].
    + injection H as <- _. exact G.
    + match type of H with context [rp_insert ?z cid addr] => pose proof (Ins z cid addr [] eq_refl) as X; destruct (rp_insert z cid addr) end.
      inversion H; subst. apply X. exact No.
  - unfold rp_accept in H. destruct (match max with Some m => m <=? rp_active s | None => false end); inversion H; subst; exact G.
  - destruct (rp_chan s); inversion H; subst; exact G.
  - destruct (smem rid (rp_held s)); [destruct (os_receiver s rid)|]; inversion H; subst; exact G.
  - destruct (smem rid (rp_held s)); inversion H; subst; exact G.
  - inversion H; subst; exact G.
Qed.
End P.
