(** Invariants of the reply driver, part 3: authentication gate, requests yielded, counters, polls. *)
From Coq Require Import ZArith ZifyBool ZifyNat ZifyN Permutation.
From Verif Require Import Model.Base Model.Map Model.WireReqRep Model.Compression Model.Stats Model.Framed Model.WireAuth
  Model.Handshake Model.ReqDriver Model.RepDriver Spec.CompressSpec Spec.RepSpec Proofs.BaseP Proofs.MapP Proofs.RepDriverP Proofs.RepDriverP2.
Local Open Scope N_scope.

Ltac nolog := let x := fresh in let H := fresh in intros x H; cbn [In app] in H; repeat (destruct H as [<-|H]; [reflexivity|]); try destruct H.
Ltac noins := let x := fresh in let H := fresh in intros x H; try (apply in_app_or in H; destruct H as [[<-|[<-|[]]]|H]; [reflexivity|reflexivity|]);
  apply insert_log in H; destruct H as [-> | (? & _ & _ & ->)]; reflexivity.
Ltac prims P := destruct P as [s a p G Op|s a p m q ok G Op E|s a p r id x m G Op Hi Os Ro|s a p r id x G Op Hi Os Ro|s a p r id G Op Hi Os1 Os2|s a p G Op|s a p m G Op|s a p G Op
    |s k cid addr au i b id w rest Nk Au As|s k cid addr au i b w rest Nk Au As|s k cid addr au i b w rest Nk Au As|s k cid Nk|s k cid addr Nk Au|s k cid addr Nk Au
    |s|s Hm|s q rest Ch|s rid x Hh Or|s rid x Hh Or|s rid Hh|s].

Lemma split_app_cons {A} (L o before after : list A) x : L ++ o = before ++ x :: after ->
  (exists a', L = before ++ x :: a' /\ after = a' ++ o) \/ (exists b', before = L ++ b' /\ o = b' ++ x :: after).
Proof.
  revert before. induction L as [|y L IH]; intros before H; cbn [app] in H; [right; exists before; auto|].
  destruct before as [|z before]; cbn [app] in H; inversion H; subst; [left; exists L; auto|].
  destruct (IH _ H2) as [(a' & -> & ->)|(b' & -> & ->)]; [left; exists a'; auto|right; exists b'; auto].
Qed.

Lemma flat_map_ext_in {A B} (f g : A -> list B) l : (forall x, In x l -> f x = g x) -> flat_map f l = flat_map g l.
Proof. induction l as [|x l IH]; intros H; [reflexivity|]. cbn. rewrite (H x (or_introl eq_refl)), IH; [reflexivity|]. intros y Hy; apply H; right; exact Hy. Qed.

Section P.
Variables (max : option N) (min : N) (auth : option (bytes -> bool)) (co : option compressor) (D : decompressors).
Notation prim := (prim max min auth co D).

(** ** The gate *)
Definition authed (L : list rout) (c : N) : Prop := auth = None \/ exists input id, In (RAuthed c input id) L.
Definition gate (L : list rout) (s : rp) : Prop :=
  (forall b p, mget b (rp_peers s) = Some p -> pr_open p = true -> authed L (pr_cid p)) /\
  (forall before c a r m after, L = before ++ RIncoming c a r m :: after -> authed before c) /\
  (forall c input id, In (RAuthed c input id) L -> exists au b w rest, auth = Some au /\ auth_server au b input = (AuthOk id, w, rest)).

Lemma authed_app L o c : authed L c -> authed (L ++ o) c.
Proof using. intros [H|(i & id & H)]; [left; exact H|right; exists i, id; apply in_or_app; left; exact H]. Qed.

Definition is_au (x : rout) := match x with RAuthed _ _ _ => true | _ => false end.
Lemma gate_step L s o s' : gate L s -> none_of is_inc o -> none_of is_au o ->
  (forall b p, mget b (rp_peers s') = Some p -> pr_open p = true -> authed (L ++ o) (pr_cid p)) -> gate (L ++ o) s'.
Proof using.
  intros (G1 & G2 & G3) N1 N2 H. split; [exact H|]. split.
  - intros before c a r m after E. apply split_app_cons in E. destruct E as [(a' & E & _)|(b' & -> & E)]; [eapply G2; eauto|].
    exfalso. assert (X : In (RIncoming c a r m) o) by (rewrite E; apply in_or_app; right; left; reflexivity). apply N1 in X. discriminate.
  - intros c i id X. apply in_app_or in X. destruct X as [X|X]; [apply G3 in X; exact X|apply N2 in X; discriminate].
Qed.

Lemma gate_prim L s o s' : gate L s -> prim s o s' -> gate (L ++ o) s'.
Proof using.
  intros I P. pose proof I as (G1 & G2 & G3).
  assert (Upd : forall s0 a p p' b q, (forall b p, mget b (rp_peers s0) = Some p -> pr_open p = true -> authed L (pr_cid p)) -> forall o', mget a (rp_peers s0) = Some p -> pr_open p = true -> pr_cid p' = pr_cid p ->
     mget b (mset a p' (rp_peers s0)) = Some q -> pr_open q = true -> authed (L ++ o') (pr_cid q)).
  { intros s0 a p p' b q G0 o' G O C. rewrite mget_set. destruct (eq_dec b a) as [->|Ne]; intros X Y; apply authed_app; [|eapply G0; eauto].
    inversion X; subst. rewrite C. eapply G0; eauto. }
  prims P; try (eapply gate_step; [exact I|solve [nolog]|solve [nolog]|intros b0 p0 X Y; apply authed_app; eapply G1; eauto]; fail).
  - eapply gate_step; [exact I|nolog|nolog|]. intros b0 p0 X Y. refine (Upd s a p _ b0 p0 G1 _ G Op _ X Y); reflexivity.
  - eapply gate_step; [exact I|nolog|nolog|]. intros b0 p0 X Y. refine (Upd s a p _ b0 p0 G1 _ G Op _ X Y); reflexivity.
  - eapply gate_step; [exact I|nolog|nolog|]. intros b0 p0 X Y. refine (Upd s a p _ b0 p0 G1 _ G Op _ X Y); reflexivity.
  - eapply gate_step; [exact I|nolog|nolog|]. intros b0 p0 X Y. refine (Upd s a p _ b0 p0 G1 _ G Op _ X Y); reflexivity.
  - eapply gate_step; [exact I|nolog|nolog|]. intros b0 p0 X Y. refine (Upd s a p _ b0 p0 G1 _ G Op _ X Y); reflexivity.
  - eapply gate_step; [exact I|nolog|nolog|]. intros b0 p0 X Y. refine (Upd s a p _ b0 p0 G1 _ G Op _ X Y); reflexivity.
  - set (s1 := upd s a _). destruct (on_request_frame D s1 a (pr_cid p) m) as (_ & _ & _ & J4 & _ & _ & _ & _ & _ & _ & J11).
    set (z := rp_on_request D s1 a (pr_cid p) m) in *. change (rp_next_rid s1) with (rp_next_rid s) in *.
    assert (X : exists y, snd z = [RIncoming (pr_cid p) a (rp_next_rid s) m; y] /\ is_inc y = false /\ is_au y = false).
    { destruct J11 as [(q & -> & _)|(-> & _)]; eauto. }
    destruct X as (y & X1 & X2 & X3). rewrite X1. split; [|split].
    + rewrite J4. intros b0 p0 X Y. refine (Upd s a p _ b0 p0 G1 _ G Op _ X Y); reflexivity.
    + intros before c a0 r m0 after X. apply split_app_cons in X. destruct X as [(a' & X & _)|(b' & -> & X)]; [eapply G2; eauto|].
      destruct b' as [|w [|w' b']]; inversion X; subst; [rewrite app_nil_r; eapply G1; eauto|discriminate|destruct b'; discriminate].
    + intros c i id X. apply in_app_or in X. destruct X as [X|[X|[X|[]]]]; [eapply G3; eauto|discriminate|subst; discriminate].
  - eapply gate_step; [exact I|nolog|nolog|]. cbn [rp_with_peers rp_peers]. intros b0 p0. rewrite mget_del. destruct (eq_dec b0 a); [discriminate|]. intros X Y. apply authed_app; eapply G1; eauto.
  - split; [|split].
    + cbn [rp_insert fst rp_with_peers rp_peers]. intros b0 p0. rewrite mget_set. destruct (eq_dec b0 addr) as [->|Ne].
      * intros X; inversion X; subst. intros _. right. exists i, id. apply in_or_app; right. right; left. reflexivity.
      * intros X Y. apply authed_app; eapply G1; eauto.
    + intros before c a0 r m0 after X. apply split_app_cons in X. destruct X as [(a' & X & _)|(b' & -> & X)]; [eapply G2; eauto|].
      exfalso. assert (Y : In (RIncoming c a0 r m0) (b' ++ RIncoming c a0 r m0 :: after)) by (apply in_or_app; right; left; reflexivity). rewrite <- X in Y.
      destruct Y as [Y|[Y|Y]]; [discriminate|discriminate|]. apply insert_log in Y. destruct Y as [Y|(? & _ & _ & Y)]; discriminate.
    + intros c i' id' X. apply in_app_or in X. destruct X as [X|[X|[X|X]]]; [eapply G3; eauto|discriminate| |].
      * inversion X; subst. exists au, b, w, rest. auto.
      * apply insert_log in X. destruct X as [X|(? & _ & _ & X)]; discriminate.
  - eapply gate_step; [exact I|noins|noins|]. cbn [rp_insert fst rp_with_peers rp_peers]. intros b0 p0. rewrite mget_set. destruct (eq_dec b0 addr) as [->|Ne].
    + intros X; inversion X; subst. intros _. left. exact Au.
    + intros X Y. apply authed_app; eapply G1; eauto.
  - eapply gate_step; [exact I|apply drop_log; reflexivity|apply drop_log; reflexivity|]. intros b0 p0 X Y; apply authed_app; eapply G1; eauto.
Qed.
Lemma run_gate evs s L : rp_run max min auth co D rp_init evs = (s, L) -> gate L s.
Proof using.
  apply (run_inv max min auth co D gate gate_prim). split; [discriminate|]. split; [|intros ? ? ? []]. intros before c a r m after H. destruct before; discriminate.
Qed.

(** ** Requests yielded *)
Definition kept (lost : list N) (x : N * N * rr_msg) : list request :=
  let '(a, r, m) := x in
  if smem r lost then [] else match try_decompress D (rr_ctype m) (rr_payload m) with Some p => [mkReq a r p] | None => [] end.
Definition yields (L : list rout) (s : rp) : Prop :=
  (forall r, In r (lost_rids L) -> r < rp_next_rid s) /\
  yielded L = flat_map (kept (lost_rids L)) (incoming L) /\
  (rp_dropped s = false -> got L ++ rp_chan s = yielded L) /\
  (rp_dropped s = true -> rp_chan s = [] /\ exists rest, yielded L = got L ++ rest) /\
  (rp_dropped s = true <-> In RSocketDropped L) /\
  (forall before r after, L = before ++ RLost r :: after -> exists b c a m, before = b ++ [RIncoming c a r m] /\
     (try_decompress D (rr_ctype m) (rr_payload m) = None \/ In RSocketDropped b \/ exists w, yielded b = got b ++ w /\ 1024 <= blen w)).

Definition is_y (x : rout) := match x with RIncoming _ _ _ _ | RYield _ | RLost _ | RReceived _ | RSocketDropped => true | _ => false end.
Lemma none_y o : none_of is_y o -> lost_rids o = [] /\ yielded o = [] /\ incoming o = [] /\ got o = [].
Proof using.
  intros X. induction o as [|x o IH]; [repeat split|]. destruct IH as (A & B & C & E); [intros y Hy; apply X; right; exact Hy|].
  pose proof (X x (or_introl eq_refl)) as X1. destruct x; try discriminate; repeat split; cbn; auto.
Qed.
Lemma lost_app a b : lost_rids (a ++ b) = lost_rids a ++ lost_rids b. Proof using. apply flat_map_app. Qed.
Lemma yielded_app a b : yielded (a ++ b) = yielded a ++ yielded b. Proof using. apply flat_map_app. Qed.
Lemma incoming_app a b : incoming (a ++ b) = incoming a ++ incoming b. Proof using. apply flat_map_app. Qed.
Lemma got_app a b : got (a ++ b) = got a ++ got b. Proof using. apply flat_map_app. Qed.

Lemma yields_same L s o s' : yields L s -> none_of is_y o -> rp_chan s' = rp_chan s -> rp_dropped s' = rp_dropped s -> rp_next_rid s' = rp_next_rid s -> yields (L ++ o) s'.
Proof using.
  intros (Y1 & Y2 & Y3 & Y4 & Y5 & Y6) No E1 E2 E3. destruct (none_y o No) as (N1 & N2 & N3 & N4). unfold yields.
  rewrite lost_app, yielded_app, incoming_app, got_app, N1, N2, N3, N4, !app_nil_r, E1, E2, E3.
  split; [exact Y1|]. split; [exact Y2|]. split; [exact Y3|]. split; [exact Y4|]. split.
  - rewrite Y5. symmetry. apply (in_none is_y); [exact No|reflexivity].
  - intros before r after E. apply split_app_cons in E. destruct E as [(a' & E & _)|(b' & -> & E)]; [eapply Y6; eauto|].
    exfalso. assert (X : In (RLost r) o) by (rewrite E; apply in_or_app; right; left; reflexivity). apply No in X. discriminate.
Qed.

Lemma in_incoming a r m L : In (a, r, m) (incoming L) <-> exists c, In (RIncoming c a r m) L.
Proof using.
  unfold incoming. rewrite in_flat_map. split.
  - intros (x & Hx & H). destruct x; cbn in H; try contradiction. destruct H as [H|[]]. inversion H; subst. eauto.
  - intros (c & H). exists (RIncoming c a r m). split; [exact H|left; reflexivity].
Qed.

Lemma yields_prim L s o s' : reqs L s -> yields L s -> prim s o s' -> yields (L ++ o) s'.
Proof using.
  intros (Q1 & _) I P. pose proof I as (Y1 & Y2 & Y3 & Y4 & Y5 & Y6).
  prims P; try (eapply yields_same; [exact I|first [solve [nolog]|noins]|reflexivity..]).
  - set (s1 := upd s a _). destruct (on_request_frame D s1 a (pr_cid p) m) as (_ & _ & _ & _ & _ & J6 & _ & _ & _ & J10 & J11).
    set (z := rp_on_request D s1 a (pr_cid p) m) in *. change (rp_next_rid s1) with (rp_next_rid s) in *. change (rp_dropped s1) with (rp_dropped s) in *. change (rp_chan s1) with (rp_chan s) in *.
    assert (Nl : ~ In (rp_next_rid s) (lost_rids L)) by (intros X; apply Y1 in X; lia).
    unfold yields. rewrite J6, J10, incoming_app, lost_app, yielded_app, got_app, flat_map_app.
    destruct J11 as [(q & J & Jr & Js & Jm & Jd & -> & _)|(J & Jc & -> & _)]; rewrite J; cbn [incoming lost_rids yielded got flat_map app kept]; rewrite !app_nil_r.
    + assert (smem (rp_next_rid s) (lost_rids L) = false) as -> by (apply smem_false, Nl). rewrite Jm.
      split; [intros r X; apply Y1 in X; lia|]. split; [rewrite Y2; destruct q; cbn in *; subst; reflexivity|].
      split; [intros _; rewrite app_assoc, (Y3 Jd); reflexivity|]. split; [congruence|]. split.
      * rewrite Y5, in_app_iff. split; [auto|intros [X|[X|[X|[]]]]; [exact X|discriminate|discriminate]].
      * intros before r after X. apply split_app_cons in X. destruct X as [(a' & X & _)|(b' & -> & X)]; [eapply Y6; eauto|].
        destruct b' as [|w [|w' [|? ?]]]; discriminate.
    + assert (smem (rp_next_rid s) (lost_rids L ++ [rp_next_rid s]) = true) as -> by (apply smem_true, in_or_app; right; left; reflexivity). rewrite app_nil_r.
      split; [intros r X; apply in_app_or in X; destruct X as [X|[<-|[]]]; [apply Y1 in X; lia|lia]|]. split.
      { rewrite Y2. apply flat_map_ext_in. intros [[a0 r0] m0] X. apply in_incoming in X. destruct X as [c X]. apply Q1 in X. unfold kept.
        replace (smem r0 (lost_rids L ++ [rp_next_rid s])) with (smem r0 (lost_rids L)); [reflexivity|].
        destruct (smem r0 (lost_rids L)) eqn:S1; symmetry; [apply smem_true in S1; apply smem_true, in_or_app; left; exact S1|].
        apply smem_false in S1. apply smem_false. rewrite in_app_iff. intros [Z|[Z|[]]]; [exact (S1 Z)|lia]. }
      split; [exact Y3|]. split; [exact Y4|]. split.
      * rewrite Y5, in_app_iff. split; [auto|intros [X|[X|[X|[]]]]; [exact X|discriminate|discriminate]].
      * intros before r after X. apply split_app_cons in X. destruct X as [(a' & X & _)|(b' & -> & X)]; [eapply Y6; eauto|].
        destruct b' as [|w [|w' [|? ?]]]; inversion X; subst. exists L, (pr_cid p), a, m. split; [reflexivity|].
        destruct Jc as [Jc|[Jc|Jc]]; [left; exact Jc|right; left; apply Y5, Jc|]. destruct (rp_dropped s) eqn:Dr; [right; left; apply Y5; reflexivity|].
        right; right. exists (rp_chan s). split; [symmetry; apply Y3; reflexivity|exact Jc].
  - unfold yields. rewrite incoming_app, lost_app, yielded_app, got_app. cbn [incoming lost_rids yielded got flat_map app]. rewrite !app_nil_r.
    cbn [rp_set_app rp_dropped rp_chan rp_next_rid]. split; [exact Y1|]. split; [exact Y2|].
    split; [intros Dr; rewrite <- (Y3 Dr), Ch, <- app_assoc; reflexivity|]. split; [intros Dr; destruct (Y4 Dr) as [X _]; congruence|]. split.
    + rewrite Y5, in_app_iff. split; [auto|intros [X|[X|[]]]; [exact X|discriminate]].
    + intros before r after X. apply split_app_cons in X. destruct X as [(a' & X & _)|(b' & -> & X)]; [eapply Y6; eauto|]. destruct b' as [|w [|? ?]]; discriminate.
  - assert (No : none_of (fun x => match x with RIncoming _ _ _ _ | RYield _ | RLost _ | RReceived _ => true | _ => false end) (RSocketDropped :: map (fun q => RDiscarded (q_rid q)) (rp_chan s))) by (apply drop_log; reflexivity).
    assert (N0 : forall l, lost_rids (RSocketDropped :: map (fun q => RDiscarded (q_rid q)) l) = [] /\ yielded (RSocketDropped :: map (fun q => RDiscarded (q_rid q)) l) = [] /\
       incoming (RSocketDropped :: map (fun q => RDiscarded (q_rid q)) l) = [] /\ got (RSocketDropped :: map (fun q => RDiscarded (q_rid q)) l) = []).
    { intros l. induction l as [|q l IH]; [repeat split|]. destruct IH as (A & B & C & E). repeat split; cbn; assumption. }
    destruct (N0 (rp_chan s)) as (N1 & N2 & N3 & N4). unfold yields. rewrite lost_app, yielded_app, incoming_app, got_app, N1, N2, N3, N4, !app_nil_r.
    cbn [rp_set_app rp_dropped rp_chan rp_next_rid]. split; [exact Y1|]. split; [exact Y2|]. split; [discriminate|]. split; [|split].
    + intros _. split; [reflexivity|]. destruct (rp_dropped s) eqn:Dr; [apply Y4; reflexivity|]. exists (rp_chan s). symmetry. apply Y3; reflexivity.
    + split; [intros _; apply in_or_app; right; left; reflexivity|reflexivity].
    + intros before r after E. apply split_app_cons in E. destruct E as [(a' & E & _)|(b' & -> & E)]; [eapply Y6; eauto|].
      exfalso. assert (X : In (RLost r) (b' ++ RLost r :: after)) by (apply in_or_app; right; left; reflexivity). rewrite <- E in X. apply No in X. discriminate.
Qed.

(** ** Where a dropped oneshot comes from *)
Definition drops (L : list rout) (s : rp) : Prop :=
  (forall r, r < rp_next_rid s -> mget r (rp_os s) <> None) /\
  (forall r, mget r (rp_os s) = Some OsDropped -> In (RLost r) L \/ In (RDiscarded r) L \/ exists x, In (RResponded r x false) L) /\
  (forall a p r id x, mget a (rp_peers s) = Some p -> In (r, id) (pr_pending p) -> ~ In (RResponded r x false) L) /\
  (forall r x, In (RResponded r x false) L -> r < rp_next_rid s).

Definition is_late (x : rout) := match x with RResponded _ _ false => true | _ => false end.
Lemma drops_peers L s o s' : drops L s -> none_of is_late o -> rp_os s' = rp_os s -> rp_next_rid s' = rp_next_rid s ->
  (forall a p r id, mget a (rp_peers s') = Some p -> In (r, id) (pr_pending p) -> exists b q, mget b (rp_peers s) = Some q /\ In (r, id) (pr_pending q)) -> drops (L ++ o) s'.
Proof using.
  intros (D1 & D2 & D3 & D4) No E1 E2 H. unfold drops. rewrite E1, E2. split; [exact D1|]. split; [|split].
  - intros r X. destruct (D2 r X) as [X1|[X1|[x X1]]]; [left; apply in_or_app; auto|right; left; apply in_or_app; auto|right; right; exists x; apply in_or_app; auto].
  - intros a p r id x G Hi X. apply (in_none is_late) in X; [|exact No|reflexivity]. destruct (H _ _ _ _ G Hi) as (b & q & G' & Hi'). eapply D3; eauto.
  - intros r x X. apply (in_none is_late) in X; [|exact No|reflexivity]. eapply D4; eauto.
Qed.

Lemma drops_prim L s o s' : NoDup (mkeys (rp_peers s)) -> reqs L s -> apps L s -> drops L s -> prim s o s' -> drops (L ++ o) s'.
Proof using.
  intros Nk0 (Q1 & Q2 & Q3 & Q4) (A1 & A2 & A3 & A4 & A5) I P. pose proof I as (D1 & D2 & D3 & D4).
  assert (Mono : forall o' r, In (RLost r) L \/ In (RDiscarded r) L \/ (exists x, In (RResponded r x false) L) ->
     In (RLost r) (L ++ o') \/ In (RDiscarded r) (L ++ o') \/ exists x, In (RResponded r x false) (L ++ o')).
  { intros o' r [X1|[X1|[x X1]]]; [left; apply in_or_app; auto|right; left; apply in_or_app; auto|right; right; exists x; apply in_or_app; auto]. }
  assert (Upd : forall s0 a0 p0 p', rp_peers s0 = rp_peers s -> mget a0 (rp_peers s) = Some p0 -> (forall r id, In (r, id) (pr_pending p') -> In (r, id) (pr_pending p0)) ->
     forall b q r id, mget b (mset a0 p' (rp_peers s0)) = Some q -> In (r, id) (pr_pending q) -> exists b q, mget b (rp_peers s) = Some q /\ In (r, id) (pr_pending q)).
  { intros s0 a0 p0 p' E0 G H b q r id. rewrite mget_set, E0. destruct (eq_dec b a0) as [->|Ne]; intros X Y; [inversion X; subst; exists a0, p0; auto|eauto]. }
  prims P; try (eapply drops_peers; [exact I|solve [nolog]|reflexivity|reflexivity|intros b0 q0 r0 id0 X Y; eexists _, _; split; [exact X|exact Y]]; fail).
  - eapply drops_peers; [exact I|nolog|reflexivity|reflexivity|]. eapply (Upd s a p); [reflexivity|exact G|]. cbn; auto.
  - eapply drops_peers; [exact I|nolog|reflexivity|reflexivity|]. eapply (Upd s a p); [reflexivity|exact G|]. cbn; auto.
  - eapply drops_peers; [exact I|nolog|reflexivity|reflexivity|]. eapply (Upd s a p); [reflexivity|exact G|]. cbn [pr_pending]. intros r0 id0 X. apply in_unpend in X. apply X.
  - eapply drops_peers; [exact I|nolog|reflexivity|reflexivity|]. eapply (Upd s a p); [reflexivity|exact G|]. cbn [pr_pending]. intros r0 id0 X. apply in_unpend in X. apply X.
  - eapply drops_peers; [exact I|nolog|reflexivity|reflexivity|]. eapply (Upd s a p); [reflexivity|exact G|]. cbn [pr_pending]. intros r0 id0 X. apply in_unpend in X. apply X.
  - eapply drops_peers; [exact I|nolog|reflexivity|reflexivity|]. eapply (Upd s a p); [reflexivity|exact G|]. intros r0 id0 [].
  - set (s1 := upd s a _). destruct (on_request_frame D s1 a (pr_cid p) m) as (_ & _ & _ & J4 & _ & J6 & _ & _ & _ & _ & J11).
    set (z := rp_on_request D s1 a (pr_cid p) m) in *. change (rp_next_rid s1) with (rp_next_rid s) in *. change (rp_os s1) with (rp_os s) in *.
    assert (Ho : exists v y, rp_os (fst z) = mset (rp_next_rid s) v (rp_os s) /\ snd z = [RIncoming (pr_cid p) a (rp_next_rid s) m; y] /\ is_late y = false /\ (v = OsDropped -> y = RLost (rp_next_rid s))).
    { destruct J11 as [(q & -> & _ & _ & _ & _ & _ & ->)|(-> & _ & _ & ->)]; eexists _, _; (split; [reflexivity|]); (split; [reflexivity|]); (split; [reflexivity|]); [discriminate|reflexivity]. }
    destruct Ho as (v & y & Ho & X1 & X2 & X3). unfold drops. rewrite Ho, J6, X1, J4. split; [|split; [|split]].
    + intros r Hr. rewrite mget_set. destruct (eq_dec r (rp_next_rid s)); [discriminate|]. apply D1. lia.
    + intros r. rewrite mget_set. destruct (eq_dec r (rp_next_rid s)) as [->|Ne].
      * intros X; inversion X; subst. rewrite (X3 eq_refl). left. apply in_or_app; right; right; left; reflexivity.
      * intros X. apply Mono, D2, X.
    + intros b q r id x. cbn [s1 upd rp_with_peers rp_peers]. intros X Y Z. apply (in_none is_late) in Z; [|intros w [<-|[<-|[]]]; [reflexivity|exact X2]|reflexivity].
      rewrite mget_set in X. destruct (eq_dec b a) as [->|Ne]; [|eapply D3; eauto]. inversion X; subst. cbn [pr_pending] in Y. apply in_app_or in Y. destruct Y as [Y|[Y|[]]]; [eapply D3; eauto|].
      inversion Y; subst. apply D4 in Z. lia.
    + intros r x Z. apply (in_none is_late) in Z; [|intros w [<-|[<-|[]]]; [reflexivity|exact X2]|reflexivity]. apply D4 in Z. lia.
  - eapply drops_peers; [exact I|nolog|reflexivity|reflexivity|]. cbn [rp_with_peers rp_peers]. intros b q r id. rewrite mget_del. destruct (eq_dec b a); [discriminate|]. eauto.
  - eapply drops_peers; [exact I|noins|reflexivity|reflexivity|]. cbn [rp_insert fst rp_with_peers rp_peers drop_auth]. intros b0 q r id0. rewrite mget_set. destruct (eq_dec b0 addr); [intros X; inversion X; subst; intros []|]. eauto.
  - eapply drops_peers; [exact I|noins|reflexivity|reflexivity|]. cbn [rp_insert fst rp_with_peers rp_peers drop_conn]. intros b0 q r id0. rewrite mget_set. destruct (eq_dec b0 addr); [intros X; inversion X; subst; intros []|]. eauto.
  - unfold drops. cbn [rp_set_app rp_os rp_next_rid rp_peers]. split; [|split; [|split]].
    + intros r Hr. rewrite mget_set. destruct (eq_dec r rid); [discriminate|]. apply D1, Hr.
    + intros r. rewrite mget_set. destruct (eq_dec r rid); [discriminate|]. intros X. apply Mono, D2, X.
    + intros b q r id y X Y Z. apply (in_none is_late) in Z; [|nolog|reflexivity]. eapply D3; eauto.
    + intros r y Z. apply (in_none is_late) in Z; [|nolog|reflexivity]. eapply D4; eauto.
  - unfold drops. cbn [rp_set_app rp_os rp_next_rid rp_peers]. split; [|split; [|split]].
    + intros r Hr. rewrite mget_set. destruct (eq_dec r rid); [discriminate|]. apply D1, Hr.
    + intros r. rewrite mget_set. destruct (eq_dec r rid) as [->|]; [intros _; right; right; exists x; apply in_or_app; right; left; reflexivity|]. intros X. apply Mono, D2, X.
    + intros b q r id y X Y Z. apply in_app_or in Z. destruct Z as [Z|[Z|[]]]; [eapply D3; eauto|]. inversion Z; subst.
      assert (os_receiver s r = true); [|congruence]. unfold os_receiver. apply existsb_exists. exists (b, q). split; [apply mget_in, X|]. cbn [snd]. apply existsb_exists.
      exists (r, id). split; [exact Y|]. apply N.eqb_refl.
    + intros r y Z. apply in_app_or in Z. destruct Z as [Z|[Z|[]]]; [eapply D4; eauto|]. inversion Z; subst. eapply A4, A1, Hh.
  - unfold drops. cbn [rp_set_app rp_os rp_next_rid rp_peers]. split; [|split; [|split]].
    + intros r Hr. rewrite mget_set. destruct (eq_dec r rid); [discriminate|]. apply D1, Hr.
    + intros r. rewrite mget_set. destruct (eq_dec r rid) as [->|]; [intros _; right; left; apply in_or_app; right; left; reflexivity|]. intros X. apply Mono, D2, X.
    + intros b q r id y X Y Z. apply (in_none is_late) in Z; [|nolog|reflexivity]. eapply D3; eauto.
    + intros r y Z. apply (in_none is_late) in Z; [|nolog|reflexivity]. eapply D4; eauto.
  - unfold drops. cbn [rp_set_app rp_os rp_next_rid rp_peers]. split; [|split; [|split]].
    + intros r Hr. rewrite fold_dropped_get. destruct (in_dec eq_dec r _); [discriminate|]. apply D1, Hr.
    + intros r. rewrite fold_dropped_get. destruct (in_dec eq_dec r _) as [X|X]; [intros _|intros Z; apply Mono, D2, Z].
      right; left. apply in_or_app; right; right. apply in_map_iff in X. destruct X as (q & <- & X). apply in_map_iff. exists q; auto.
    + intros b q r id y X Y Z. apply (in_none is_late) in Z; [|apply drop_log; reflexivity|reflexivity]. eapply D3; eauto.
    + intros r y Z. apply (in_none is_late) in Z; [|apply drop_log; reflexivity|reflexivity]. eapply D4; eauto.
Qed.

(** ** Byte counter *)
Definition txs (L : list rout) (s : rp) : Prop := rp_tx s = fold_right (fun m n => rr_size m + n) 0 (taken_frames L).
Lemma taken_app a b : taken_frames (a ++ b) = taken_frames a ++ taken_frames b. Proof using. apply flat_map_app. Qed.
Lemma fold_size_app a b : fold_right (fun m n => rr_size m + n) 0 (a ++ b) = fold_right (fun m n => rr_size m + n) 0 a + fold_right (fun m n => rr_size m + n) 0 b.
Proof using. induction a as [|x a IH]; cbn [fold_right app]; [reflexivity|]. rewrite IH. lia. Qed.
Lemma none_taken o : none_of is_hand o -> taken_frames o = [].
Proof using. intros X. induction o as [|x o IH]; [reflexivity|]. assert (H : taken_frames o = []) by (apply IH; intros y Hy; apply X; right; exact Hy). pose proof (X x (or_introl eq_refl)). destruct x; try discriminate; exact H. Qed.
Lemma txs_same L s o s' : txs L s -> none_of is_hand o -> rp_tx s' = rp_tx s -> txs (L ++ o) s'.
Proof using. unfold txs. intros H No E. rewrite E, taken_app, (none_taken o No), app_nil_r. exact H. Qed.
Lemma txs_prim L s o s' : txs L s -> prim s o s' -> txs (L ++ o) s'.
Proof using.
  intros I P. prims P; try (eapply txs_same; [exact I|first [solve [nolog]|noins]|reflexivity]).
  - unfold txs in *. cbn [with_stats rp_tx]. rewrite taken_app, fold_size_app, <- I. destruct ok; cbn [taken_frames flat_map app fold_right]; lia.
  - set (s1 := upd s a _). destruct (on_request_frame D s1 a (pr_cid p) m) as (_ & _ & _ & _ & _ & _ & _ & J8 & _ & _ & J11).
    eapply txs_same; [exact I| |rewrite J8; reflexivity]. destruct J11 as [(q & -> & _)|(-> & _)]; nolog.
  - eapply txs_same; [exact I|apply drop_log; reflexivity|reflexivity].
Qed.

Definition inv3 (L : list rout) (s : rp) : Prop := inv2 min co L s /\ yields L s /\ drops L s /\ txs L s.
Lemma inv3_init : inv3 [] rp_init.
Proof using max auth.
  split; [apply (run_inv2 max min auth co D []); reflexivity|]. split.
  - split; [intros r []|]. split; [reflexivity|]. split; [reflexivity|]. split; [discriminate|]. split; [split; [discriminate|intros []]|]. intros before r after H. destruct before; discriminate.
  - split; [|reflexivity]. split; [intros r H; cbn in H; lia|]. split; [discriminate|]. split; [discriminate|]. intros ? ? [].
Qed.
Lemma inv3_prim L s o s' : inv3 L s -> prim s o s' -> inv3 (L ++ o) s'.
Proof using.
  intros ((I & Q & A & F & T) & Y & Dr & X) P.
  split; [split; [eapply inv1_prim; eauto|]; split; [eapply reqs_prim; eauto|]; split; [eapply apps_prim; eauto|]; split; [eapply frames_prim; eauto|]; eapply fate_prim; eauto; apply I|].
  split; [eapply yields_prim; eauto|]. split; [|eapply txs_prim; eauto]. eapply drops_prim; eauto. apply I.
Qed.
Lemma run_inv3 evs s L : rp_run max min auth co D rp_init evs = (s, L) -> inv3 L s.
Proof using. apply (run_inv max min auth co D inv3 inv3_prim inv3_init). Qed.
End P.
