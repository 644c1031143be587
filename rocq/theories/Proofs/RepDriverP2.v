(** Invariants of the reply driver, part 2: requests, responses and frames. *)
From Coq Require Import ZArith ZifyBool ZifyNat ZifyN Permutation.
From Verif Require Import Model.Base Model.Map Model.WireReqRep Model.Compression Model.Stats Model.Framed Model.WireAuth
  Model.Handshake Model.ReqDriver Model.RepDriver Spec.CompressSpec Spec.RepSpec Proofs.BaseP Proofs.MapP Proofs.RepDriverP.
Local Open Scope N_scope.

Lemma in_unpend r id r' l : In (r', id) (unpend r l) <-> In (r', id) l /\ r' <> r.
Proof. unfold unpend. rewrite filter_In. cbn [fst]. rewrite negb_true_iff, N.eqb_neq. tauto. Qed.

Lemma NoDup_snoc {A} (l : list A) x : NoDup l -> ~ In x l -> NoDup (l ++ [x]).
Proof. intros N H. apply (Permutation_NoDup (l := x :: l)); [apply Permutation_cons_append|constructor; assumption]. Qed.
Lemma NoDup_app_l {A} (l m : list A) : NoDup (l ++ m) -> NoDup l.
Proof. induction l as [|x l IH]; [constructor|]. cbn. intros N; inversion N as [|? ? N1 N2]; subst. constructor; [intros X; apply N1, in_or_app; left; exact X|apply IH, N2]. Qed.
Lemma NoDup_app_r {A} (l m : list A) : NoDup (l ++ m) -> NoDup m.
Proof. induction l as [|x l IH]; [auto|]. cbn. intros N; inversion N; subst. auto. Qed.
Lemma NoDup_app_dj {A} (l m : list A) x : NoDup (l ++ m) -> In x l -> In x m -> False.
Proof. induction l as [|y l IH]; [intros _ []|]. cbn. intros N; inversion N as [|? ? N1 N2]; subst. intros [->|H] Hm; [apply N1, in_or_app; right; exact Hm|exact (IH N2 H Hm)]. Qed.

Section P.
Variables (max : option N) (min : N) (auth : option (bytes -> bool)) (co : option compressor) (D : decompressors).
Notation prim := (prim max min auth co D).

(** ** No RIncoming/... in the output *)
Definition none_of (f : rout -> bool) (o : list rout) : Prop := forall x, In x o -> f x = false.
Definition is_inc (x : rout) := match x with RIncoming _ _ _ _ => true | _ => false end.
Definition is_resp (x : rout) := match x with RResponded _ _ true => true | _ => false end.
Definition is_queue (x : rout) := match x with RQueued _ _ _ => true | _ => false end.
Definition is_hand (x : rout) := match x with RHanded _ _ _ => true | _ => false end.

Lemma insert_log s cid addr x : In x (snd (rp_insert s cid addr)) -> x = ROpen cid addr \/ exists p, mget addr (rp_peers s) = Some p /\ pr_open p = true /\ x = RReplaced (pr_cid p).
Proof using.
  cbn [rp_insert snd]. intros [<-|H]; [left; reflexivity|]. destruct (mget addr (rp_peers s)) as [p|]; [|destruct H]. destruct (pr_open p) eqn:O; [|destruct H].
  destruct H as [<-|[]]. right. exists p; auto.
Qed.

Lemma none_log f o : (forall x, In x o -> f x = false) -> none_of f o.
Proof using. auto. Qed.

(** ** Requests *)
Definition reqs (L : list rout) (s : rp) : Prop :=
  (forall c a r m, In (RIncoming c a r m) L -> r < rp_next_rid s) /\
  (forall c a r m c' a' m', In (RIncoming c a r m) L -> In (RIncoming c' a' r m') L -> c = c' /\ a = a' /\ m = m') /\
  (forall a p, mget a (rp_peers s) = Some p -> pr_open p = false -> pr_pending p = [] /\ pr_egress p = []) /\
  (forall a p r id, mget a (rp_peers s) = Some p -> In (r, id) (pr_pending p) -> exists m, In (RIncoming (pr_cid p) a r m) L /\ id = rr_id m).

Lemma reqs_upd L s o s' a p : reqs L s -> none_of is_inc o -> rp_next_rid s' = rp_next_rid s -> rp_peers s' = mset a p (rp_peers s) ->
  (pr_open p = false -> pr_pending p = [] /\ pr_egress p = []) ->
  (forall r id, In (r, id) (pr_pending p) -> exists m, In (RIncoming (pr_cid p) a r m) L /\ id = rr_id m) -> reqs (L ++ o) s'.
Proof using.
  intros (Q1 & Q2 & Q3 & Q4) No Nr Ps Hc Hp. 
  assert (X : forall c a r m, In (RIncoming c a r m) (L ++ o) -> In (RIncoming c a r m) L).
  { intros c b r m H. apply in_app_or in H. destruct H as [H|H]; [exact H|]. apply No in H. discriminate. }
  split; [rewrite Nr; intros c b r m H; eapply Q1, X, H|]. split; [intros c b r m c' b' m' H H'; eapply Q2; apply X; eauto|].
  rewrite Ps. split.
  - intros b p'. rewrite mget_set. destruct (eq_dec b a) as [->|Ne]; [intros H; inversion H; subst; exact Hc|apply Q3].
  - intros b p' r id. rewrite mget_set. destruct (eq_dec b a) as [->|Ne].
    + intros H; inversion H; subst. intros Hi. destruct (Hp _ _ Hi) as (m & Hm & E). exists m. split; [apply in_or_app; left; exact Hm|exact E].
    + intros G Hi. destruct (Q4 _ _ _ _ G Hi) as (m & Hm & E). exists m. split; [apply in_or_app; left; exact Hm|exact E].
Qed.
Lemma reqs_same L s o s' : reqs L s -> none_of is_inc o -> rp_next_rid s' = rp_next_rid s -> rp_peers s' = rp_peers s -> reqs (L ++ o) s'.
Proof using.
  intros (Q1 & Q2 & Q3 & Q4) No Nr Ps. 
  assert (X : forall c a r m, In (RIncoming c a r m) (L ++ o) -> In (RIncoming c a r m) L).
  { intros c b r m H. apply in_app_or in H. destruct H as [H|H]; [exact H|]. apply No in H. discriminate. }
  split; [rewrite Nr; intros c b r m H; eapply Q1, X, H|]. split; [intros c b r m c' b' m' H H'; eapply Q2; apply X; eauto|].
  rewrite Ps. split; [exact Q3|]. intros b p r id G Hi. destruct (Q4 _ _ _ _ G Hi) as (m & Hm & E). exists m. split; [apply in_or_app; left; exact Hm|exact E].
Qed.

Ltac nolog := let x := fresh in let H := fresh in intros x H; cbn [In app] in H; repeat (destruct H as [<-|H]; [reflexivity|]); try destruct H.
Ltac noins := let x := fresh in let H := fresh in intros x H; try (apply in_app_or in H; destruct H as [[<-|[<-|[]]]|H]; [reflexivity|reflexivity|]);
  apply insert_log in H; destruct H as [-> | (? & _ & _ & ->)]; reflexivity.
Ltac prims P := destruct P as [s a p G Op|s a p m q ok G Op E|s a p r id x m G Op Hi Os Ro|s a p r id x G Op Hi Os Ro|s a p r id G Op Hi Os1 Os2|s a p G Op|s a p m G Op|s a p G Op
    |s k cid addr au i b id w rest Nk Au As|s k cid addr au i b w rest Nk Au As|s k cid addr au i b w rest Nk Au As|s k cid Nk|s k cid addr Nk Au|s k cid addr Nk Au
    |s|s Hm|s q rest Ch|s rid x Hh Or|s rid x Hh Or|s rid Hh|s].

Lemma drop_log f (l : list request) : f RSocketDropped = false -> (forall r, f (RDiscarded r) = false) -> none_of f (RSocketDropped :: map (fun q => RDiscarded (q_rid q)) l).
Proof using. intros H0 H x [<-|Hx]; [exact H0|]. apply in_map_iff in Hx. destruct Hx as (q & <- & _). apply H. Qed.

Lemma reqs_prim L s o s' : reqs L s -> prim s o s' -> reqs (L ++ o) s'.
Proof using.
  intros I P. pose proof I as (Q1 & Q2 & Q3 & Q4).
  prims P.
  - eapply reqs_upd; [exact I|nolog|reflexivity|reflexivity|discriminate|]. intros r0 id0 H0; exact (Q4 a p r0 id0 G H0).
  - eapply reqs_upd; [exact I|nolog|reflexivity|reflexivity|discriminate|]. intros r0 id0 H0; exact (Q4 a p r0 id0 G H0).
  - eapply reqs_upd; [exact I|nolog|reflexivity|reflexivity|discriminate|]. cbn [pr_pending pr_cid]. intros r' id' H. apply in_unpend in H. eapply Q4; [exact G|apply H].
  - eapply reqs_upd; [exact I|nolog|reflexivity|reflexivity|discriminate|]. cbn [pr_pending pr_cid]. intros r' id' H. apply in_unpend in H. eapply Q4; [exact G|apply H].
  - eapply reqs_upd; [exact I|nolog|reflexivity|reflexivity|discriminate|]. cbn [pr_pending pr_cid]. intros r' id' H. apply in_unpend in H. eapply Q4; [exact G|apply H].
  - eapply reqs_upd; [exact I|nolog|reflexivity|reflexivity|auto|intros ? ? []].
  - set (s1 := upd s a _). destruct (on_request_frame D s1 a (pr_cid p) m) as (_ & _ & _ & F4 & _ & F6 & _ & _ & _ & _ & F11).
    set (z := rp_on_request D s1 a (pr_cid p) m) in *. change (rp_next_rid s1) with (rp_next_rid s) in *.
    assert (X : exists y, snd z = [RIncoming (pr_cid p) a (rp_next_rid s) m; y] /\ is_inc y = false).
    { destruct F11 as [(q & -> & _)|(-> & _)]; eauto. }
    destruct X as (y & X1 & X2). rewrite X1. clear F11.
    assert (X : forall c b r m', In (RIncoming c b r m') (L ++ [RIncoming (pr_cid p) a (rp_next_rid s) m; y]) -> In (RIncoming c b r m') L \/ (c = pr_cid p /\ b = a /\ r = rp_next_rid s /\ m' = m)).
    { intros c b r m' H. apply in_app_or in H. destruct H as [H|[H|[H|[]]]]; [left; exact H|inversion H; subst; auto|subst; discriminate]. }
    split; [|split; [|split]].
    + rewrite F6. intros c b r m' H. apply X in H. destruct H as [H|(_ & _ & -> & _)]; [apply Q1 in H; lia|lia].
    + intros c b r m' c' b' m'' H H'. apply X in H. apply X in H'. destruct H as [H|(-> & -> & E1 & ->)], H' as [H'|(-> & -> & E2 & ->)].
      * eapply Q2; eauto.
      * apply Q1 in H. lia.
      * apply Q1 in H'. lia.
      * auto.
    + rewrite F4. intros b p'. cbn [upd s1 rp_with_peers rp_peers]. rewrite mget_set. destruct (eq_dec b a) as [->|Ne]; [intros H; inversion H; subst; discriminate|apply Q3].
    + rewrite F4. intros b p' r id. cbn [upd s1 rp_with_peers rp_peers]. rewrite mget_set. destruct (eq_dec b a) as [->|Ne].
      * intros H; inversion H; subst. cbn [pr_pending pr_cid]. intros Hi. apply in_app_or in Hi. destruct Hi as [Hi|[Hi|[]]].
        -- destruct (Q4 _ _ _ _ G Hi) as (m' & Hm & Em). exists m'. split; [apply in_or_app; left; exact Hm|exact Em].
        -- inversion Hi; subst. exists m. split; [apply in_or_app; right; left; reflexivity|reflexivity].
      * intros G' Hi. destruct (Q4 _ _ _ _ G' Hi) as (m' & Hm & Em). exists m'. split; [apply in_or_app; left; exact Hm|exact Em].
  - rewrite app_nil_r. split; [exact Q1|]. split; [exact Q2|]. cbn [rp_with_peers rp_peers]. split.
    + intros b p'. rewrite mget_del. destruct (eq_dec b a); [discriminate|]. apply Q3.
    + intros b p' r id. rewrite mget_del. destruct (eq_dec b a); [discriminate|]. apply Q4.
  - eapply (reqs_upd L s _ _ addr (mkPeer cid [] [] false true)); [exact I|noins|reflexivity|reflexivity|discriminate|intros ? ? []].
  - eapply reqs_same; [exact I|nolog|reflexivity|reflexivity].
  - eapply reqs_same; [exact I|nolog|reflexivity|reflexivity].
  - eapply reqs_same; [exact I|nolog|reflexivity|reflexivity].
  - eapply reqs_same; [exact I|nolog|reflexivity|reflexivity].
  - eapply (reqs_upd L s _ _ addr (mkPeer cid [] [] false true)); [exact I|noins|reflexivity|reflexivity|discriminate|intros ? ? []].
  - eapply reqs_same; [exact I|nolog|reflexivity|reflexivity].
  - eapply reqs_same; [exact I|nolog|reflexivity|reflexivity].
  - eapply reqs_same; [exact I|nolog|reflexivity|reflexivity].
  - eapply reqs_same; [exact I|nolog|reflexivity|reflexivity].
  - eapply reqs_same; [exact I|nolog|reflexivity|reflexivity].
  - eapply reqs_same; [exact I|nolog|reflexivity|reflexivity].
  - eapply reqs_same; [exact I|apply drop_log; reflexivity|reflexivity|reflexivity].
Qed.

(** ** The application's side *)
Definition apps (L : list rout) (s : rp) : Prop :=
  (forall r, In r (rp_held s) -> mget r (rp_os s) = Some OsWait) /\
  (forall q, In q (rp_chan s) -> mget (q_rid q) (rp_os s) = Some OsWait) /\
  NoDup (rp_held s ++ map q_rid (rp_chan s)) /\
  (forall r v, mget r (rp_os s) = Some v -> r < rp_next_rid s) /\
  (forall r x, mget r (rp_os s) = Some (OsSent x) <-> In (RResponded r x true) L).

Lemma in_none f o x : none_of f o -> f x = true -> forall L, In x (L ++ o) <-> In x L.
Proof using. intros N F L. rewrite in_app_iff. split; [intros [H|H]; [exact H|apply N in H; congruence]|auto]. Qed.

Lemma apps_same L s o s' : apps L s -> none_of is_resp o -> rp_held s' = rp_held s -> rp_chan s' = rp_chan s -> rp_os s' = rp_os s ->
  rp_next_rid s' = rp_next_rid s -> apps (L ++ o) s'.
Proof using.
  intros (A1 & A2 & A3 & A4 & A5) No E1 E2 E3 E4. unfold apps. rewrite E1, E2, E3, E4. split; [exact A1|]. split; [exact A2|]. split; [exact A3|]. split; [exact A4|].
  intros r x. rewrite A5. symmetry. apply (in_none is_resp); [exact No|reflexivity].
Qed.

Lemma nodup_sdel_app (r : N) l m : NoDup (l ++ m) -> NoDup (sdel r l ++ m).
Proof using.
  intros N. induction l as [|x l IH]; [exact N|]. cbn [sdel remove]. cbn [app] in N. inversion N as [|? ? N1 N2]; subst. destruct (eq_dec r x); [apply IH, N2|].
  cbn [app]. constructor; [|apply IH, N2]. intros H. apply N1. apply in_app_or in H. apply in_or_app. destruct H as [H|H]; [left; apply in_sdel in H; apply H|right; exact H].
Qed.

Lemma fold_dropped_get l : forall os (r : N), mget r (fold_left (fun os q => mset (q_rid q) OsDropped os) l os) =
  if in_dec eq_dec r (map q_rid l) then Some OsDropped else mget r os.
Proof using.
  induction l as [|q l IH]; intros os r; cbn [fold_left map]; [destruct (in_dec eq_dec r []) as [[]|]; reflexivity|].
  rewrite IH. destruct (in_dec eq_dec r (map q_rid l)) as [H|H].
  - destruct (in_dec eq_dec r (q_rid q :: map q_rid l)) as [_|H']; [reflexivity|exfalso; apply H'; right; exact H].
  - rewrite mget_set. destruct (eq_dec r (q_rid q)) as [->|Ne].
    + destruct (in_dec eq_dec (q_rid q) (q_rid q :: map q_rid l)) as [_|H']; [reflexivity|exfalso; apply H'; left; reflexivity].
    + destruct (in_dec eq_dec r (q_rid q :: map q_rid l)) as [[H'|H']|_]; [congruence|contradiction|reflexivity].
Qed.

Lemma apps_settle L s rid v o : apps L s -> In rid (rp_held s) -> v <> OsWait ->
  (forall x, v = OsSent x -> In (RResponded rid x true) o) -> (forall r x, In (RResponded r x true) o -> r = rid /\ v = OsSent x) ->
  apps (L ++ o) (rp_set_app s (rp_chan s) (sdel rid (rp_held s)) (mset rid v (rp_os s)) (rp_dropped s)).
Proof using.
  intros (A1 & A2 & A3 & A4 & A5) Hh Hv H1 H2. unfold apps. cbn [rp_set_app rp_held rp_chan rp_os rp_next_rid].
  assert (Nc : ~ In rid (map q_rid (rp_chan s))) by (intros H; eapply NoDup_app_dj; eauto).
  split; [|split; [|split; [|split]]].
  - intros r H. apply in_sdel in H. rewrite mget_set_ne by apply H. apply A1, H.
  - intros q H. rewrite mget_set_ne; [apply A2, H|]. intros E0. apply Nc. rewrite <- E0. apply in_map, H.
  - apply nodup_sdel_app, A3.
  - intros r v'. rewrite mget_set. destruct (eq_dec r rid) as [->|Ne]; [intros _; eapply A4, A1, Hh|apply A4].
  - intros r x. rewrite mget_set, in_app_iff. destruct (eq_dec r rid) as [->|Ne].
    + split; [intros H; inversion H; subst; right; apply H1; reflexivity|]. intros [H|H].
      * apply A5 in H. rewrite (A1 _ Hh) in H. discriminate.
      * apply H2 in H. destruct H as [_ ->]. reflexivity.
    + rewrite A5. split; [auto|]. intros [H|H]; [exact H|]. apply H2 in H. tauto.
Qed.

Lemma apps_prim L s o s' : apps L s -> prim s o s' -> apps (L ++ o) s'.
Proof using.
  intros I P. pose proof I as (A1 & A2 & A3 & A4 & A5).
  prims P; try (eapply apps_same; [exact I|first [solve [nolog]|noins]|reflexivity..]).
  - set (s1 := upd s a _). destruct (on_request_frame D s1 a (pr_cid p) m) as (_ & _ & _ & _ & F5 & F6 & _ & _ & _ & _ & F11).
    set (z := rp_on_request D s1 a (pr_cid p) m) in *. change (rp_next_rid s1) with (rp_next_rid s) in *.
    change (rp_held s1) with (rp_held s) in F5. change (rp_chan s1) with (rp_chan s) in F11. change (rp_os s1) with (rp_os s) in F11.
    assert (Fr : mget (rp_next_rid s) (rp_os s) = None). { destruct (mget (rp_next_rid s) (rp_os s)) eqn:G'; [|reflexivity]. apply A4 in G'. lia. }
    assert (Nh : forall r, mget r (rp_os s) = Some OsWait -> r <> rp_next_rid s) by (intros r H ->; congruence).
    unfold apps. rewrite F5, F6.
    destruct F11 as [(q & F & Hr & Hs & Hm & Hd & -> & ->)|(F & _ & -> & ->)]; rewrite F.
    + split; [intros r H; rewrite mget_set_ne; [apply A1, H|apply Nh, A1, H]|].
      split; [intros q' H; apply in_app_or in H; destruct H as [H|[<-|[]]]; [rewrite mget_set_ne; [apply A2, H|apply Nh, A2, H]|rewrite Hr; apply mget_set_eq]|].
      split; [rewrite map_app, app_assoc; apply NoDup_snoc; [exact A3|]|].
      { rewrite Hr. intros H. apply in_app_or in H. destruct H as [H|H]; [apply (Nh _ (A1 _ H)); reflexivity|].
        apply in_map_iff in H. destruct H as (q' & E & H). apply (Nh _ (A2 _ H)). congruence. }
      split; [intros r v; rewrite mget_set; destruct (eq_dec r (rp_next_rid s)) as [->|Ne]; [lia|intros H; apply A4 in H; lia]|].
      intros r x. rewrite (in_none is_resp) by (try nolog; reflexivity). rewrite mget_set. destruct (eq_dec r (rp_next_rid s)) as [->|Ne]; [|apply A5].
      split; [discriminate|]. intros H. apply A5 in H. congruence.
    + split; [intros r H; rewrite mget_set_ne; [apply A1, H|apply Nh, A1, H]|].
      split; [intros q' H; rewrite mget_set_ne; [apply A2, H|apply Nh, A2, H]|].
      split; [exact A3|].
      split; [intros r v; rewrite mget_set; destruct (eq_dec r (rp_next_rid s)) as [->|Ne]; [lia|intros H; apply A4 in H; lia]|].
      intros r x. rewrite (in_none is_resp) by (try nolog; reflexivity). rewrite mget_set. destruct (eq_dec r (rp_next_rid s)) as [->|Ne]; [|apply A5].
      split; [discriminate|]. intros H. apply A5 in H. congruence.
  - unfold apps. cbn [rp_set_app rp_held rp_chan rp_os rp_next_rid]. rewrite Ch in A2, A3. cbn [map] in A3.
    split; [intros r [<-|H]; [apply A2; left; reflexivity|apply A1, H]|]. split; [intros q' H; apply A2; right; exact H|].
    split; [|split; [exact A4|]].
    + apply (Permutation_NoDup (l := rp_held s ++ q_rid q :: map q_rid rest)); [|exact A3]. cbn [app]. symmetry. apply Permutation_middle.
    + intros r x. rewrite (in_none is_resp) by (try nolog; reflexivity). apply A5.
  - eapply apps_settle; [exact I|exact Hh|discriminate| |].
    + intros x' H; inversion H; left; reflexivity.
    + intros r x' [H|[]]; inversion H; auto.
  - eapply apps_settle; [exact I|exact Hh|discriminate|discriminate|]. intros r x' [H|[]]; discriminate.
  - eapply apps_settle; [exact I|exact Hh|discriminate|discriminate|]. intros r x' [H|[]]; discriminate.
  - unfold apps. cbn [rp_set_app rp_held rp_chan rp_os rp_next_rid map]. rewrite app_nil_r.
    split; [intros r H; rewrite fold_dropped_get; destruct (in_dec eq_dec r _) as [H'|_]; [exfalso; eapply NoDup_app_dj; eauto|apply A1, H]|].
    split; [intros q []|]. split; [eapply NoDup_app_l; exact A3|]. split.
    + intros r v. rewrite fold_dropped_get. destruct (in_dec eq_dec r _) as [H'|_]; [|apply A4]. intros _. apply in_map_iff in H'. destruct H' as (q & <- & Hq). eapply A4, A2, Hq.
    + intros r x. rewrite (in_none is_resp); [|apply drop_log; reflexivity|reflexivity]. rewrite fold_dropped_get. destruct (in_dec eq_dec r _) as [H'|_]; [|apply A5].
      split; [discriminate|]. intros H. apply A5 in H. apply in_map_iff in H'. destruct H' as (q & <- & Hq). rewrite (A2 _ Hq) in H. discriminate.
Qed.

(** ** Frames *)
Lemma inv1_nodup L s : inv1 L s -> NoDup (connections s).
Proof using. intros (_ & I2 & _ & I4 & _). apply NoDup_app_l with (m := ended L). apply (Permutation_NoDup I4 I2). Qed.
Lemma inv1_lt L s c : inv1 L s -> In c (connections s) -> c < rp_next_cid s.
Proof using. intros (_ & _ & I3 & I4 & _) H. apply I3. apply (Permutation_in (l := connections s ++ ended L)); [symmetry; exact I4|]. apply in_or_app; left; exact H. Qed.
Lemma open_cid_in a p ps : mget a ps = Some p -> pr_open p = true -> In (pr_cid p) (open_cids ps).
Proof using. intros G O. unfold open_cids. apply in_flat_map. exists (a, p). split; [apply mget_in; exact G|]. cbn [snd]. unfold oc. rewrite O. left; reflexivity. Qed.
Lemma open_conn s a p : mget a (rp_peers s) = Some p -> pr_open p = true -> In (pr_cid p) (connections s).
Proof using. intros G O. unfold connections. do 2 (apply in_or_app; right). eapply open_cid_in; eauto. Qed.
Lemma open_inj L s a b p q : inv1 L s -> mget a (rp_peers s) = Some p -> mget b (rp_peers s) = Some q -> pr_open p = true -> pr_open q = true ->
  pr_cid p = pr_cid q -> a = b.
Proof using.
  intros I G1 G2 O1 O2 E. destruct (N.eq_dec a b) as [|Ne]; [assumption|]. exfalso.
  pose proof (inv1_nodup L s I) as Nd. destruct I as (I1 & _). unfold connections in Nd. do 2 apply NoDup_app_r in Nd.
  rewrite (oc_get a p _ I1 G1) in Nd. unfold oc in Nd. rewrite O1 in Nd. cbn [app] in Nd. inversion Nd as [|? ? N1 N2]; subst. apply N1. rewrite E.
  apply (open_cid_in b q); [|exact O2]. rewrite mget_del_ne; [exact G2|]. intros X; apply Ne; symmetry; exact X.
Qed.
Definition unserved (s : rp) (c : N) : Prop := In c (rp_conns s) \/ In c (map fst (rp_auths s)) \/ rp_next_cid s <= c.
Lemma open_served L s a p : inv1 L s -> mget a (rp_peers s) = Some p -> pr_open p = true -> ~ unserved s (pr_cid p).
Proof using.
  intros I G O [H|[H|H]].
  - apply inv1_nodup in I. unfold connections in I. eapply NoDup_app_dj; [exact I|exact H|]. apply in_or_app; right. eapply open_cid_in; eauto.
  - apply inv1_nodup in I. unfold connections in I. apply NoDup_app_r in I. eapply NoDup_app_dj; [exact I|exact H|]. eapply open_cid_in; eauto.
  - pose proof (inv1_lt _ _ _ I (open_conn _ _ _ G O)). lia.
Qed.

Definition queued_on (cid : N) (l : list rout) : list (N * rr_msg) :=
  flat_map (fun x => match x with RQueued c r m => if eq_dec c cid then [(r, m)] else [] | _ => [] end) l.
Definition queued_rids (l : list rout) : list N := flat_map (fun x => match x with RQueued _ r _ => [r] | _ => [] end) l.
Lemma queued_on_app c a b : queued_on c (a ++ b) = queued_on c a ++ queued_on c b. Proof using. apply flat_map_app. Qed.
Lemma queued_rids_app a b : queued_rids (a ++ b) = queued_rids a ++ queued_rids b. Proof using. apply flat_map_app. Qed.
Lemma handed_on_app c a b : handed_on c (a ++ b) = handed_on c a ++ handed_on c b. Proof using. apply flat_map_app. Qed.
Definition is_qh (x : rout) : bool := is_queue x || is_hand x.
Lemma none_qh o : none_of is_qh o -> (forall c, queued_on c o = []) /\ queued_rids o = [] /\ (forall c, handed_on c o = []).
Proof using.
  intros H. assert (X : forall x, In x o -> is_queue x = false /\ is_hand x = false).
  { intros x Hx. apply H in Hx. unfold is_qh in Hx. apply orb_false_iff in Hx. exact Hx. }
  clear H. induction o as [|x o IH]; [repeat split|]. destruct IH as (A & B & C); [intros y Hy; apply X; right; exact Hy|].
  destruct (X x (or_introl eq_refl)) as [X1 X2]. destruct x; try discriminate; repeat split; cbn; auto.
Qed.

Definition frames (L : list rout) (s : rp) : Prop :=
  (forall c r m, In (RQueued c r m) L -> exists a req x, In (RIncoming c a r req) L /\ In (RResponded r x true) L /\ rep_outgoing min co (rr_id req) x = Some m) /\
  NoDup (queued_rids L) /\
  (forall a p r id, mget a (rp_peers s) = Some p -> In (r, id) (pr_pending p) -> ~ In r (queued_rids L)) /\
  (forall a p, mget a (rp_peers s) = Some p -> pr_open p = true -> map snd (queued_on (pr_cid p) L) = handed_on (pr_cid p) L ++ pr_egress p) /\
  (forall c, exists rest, map snd (queued_on c L) = handed_on c L ++ rest) /\
  (forall c, unserved s c -> queued_on c L = []).

Lemma frames_quiet L s o s' : frames L s -> none_of is_qh o ->
  (forall a p r id, mget a (rp_peers s') = Some p -> In (r, id) (pr_pending p) -> ~ In r (queued_rids L)) ->
  (forall a p, mget a (rp_peers s') = Some p -> pr_open p = true ->
     (exists q, mget a (rp_peers s) = Some q /\ pr_open q = true /\ pr_cid q = pr_cid p /\ pr_egress q = pr_egress p) \/ (unserved s (pr_cid p) /\ pr_egress p = [])) ->
  (forall c, unserved s' c -> unserved s c) -> frames (L ++ o) s'.
Proof using.
  intros (F1 & F2 & F3 & F4 & F5 & F6) No Hp Ho Hu. destruct (none_qh o No) as (N1 & N2 & N3).
  unfold frames. rewrite queued_rids_app, N2, app_nil_r. split; [|split; [exact F2|split; [exact Hp|split; [|split]]]].
  - intros c r m H. apply in_app_or in H. destruct H as [H|H]; [|apply No in H; discriminate].
    destruct (F1 _ _ _ H) as (a & req & x & X1 & X2 & X3). exists a, req, x. split; [apply in_or_app; left; exact X1|]. split; [apply in_or_app; left; exact X2|exact X3].
  - intros a p G O. rewrite queued_on_app, handed_on_app, N1, N3, !app_nil_r. destruct (Ho a p G O) as [(q & Gq & Oq & Cq & Eq)|(U & E)].
    + rewrite <- Cq, <- Eq. eapply F4; eauto.
    + rewrite E, app_nil_r, (F6 _ U). destruct (F5 (pr_cid p)) as [rest Hr]. rewrite (F6 _ U) in Hr. cbn in Hr. destruct (handed_on (pr_cid p) L); [reflexivity|discriminate].
  - intros c. rewrite queued_on_app, handed_on_app, N1, N3, !app_nil_r. apply F5.
  - intros c U. rewrite queued_on_app, N1, app_nil_r. apply F6, Hu, U.
Qed.

(** The peers are untouched. *)
Lemma frames_same L s o s' : frames L s -> none_of is_qh o -> rp_peers s' = rp_peers s -> (forall c, unserved s' c -> unserved s c) -> frames (L ++ o) s'.
Proof using.
  intros F No E Hu. eapply frames_quiet; [exact F|exact No| | |exact Hu]; rewrite E.
  - destruct F as (_ & _ & F3 & _). exact F3.
  - intros a p G O. left. exists p. auto.
Qed.
(** One peer is updated. *)
Lemma frames_upd L s o s' a p p' : frames L s -> none_of is_qh o -> rp_peers s' = mset a p' (rp_peers s) -> mget a (rp_peers s) = Some p ->
  (forall r id, In (r, id) (pr_pending p') -> In (r, id) (pr_pending p) \/ ~ In r (queued_rids L)) ->
  (pr_open p' = true -> pr_open p = true /\ pr_cid p = pr_cid p' /\ pr_egress p = pr_egress p') ->
  (forall c, unserved s' c -> unserved s c) -> frames (L ++ o) s'.
Proof using.
  intros F No E G H1 H2 Hu. eapply frames_quiet; [exact F|exact No| | |exact Hu]; rewrite E.
  - destruct F as (_ & _ & F3 & _). intros b q r id. rewrite mget_set. destruct (eq_dec b a) as [->|Ne]; [|apply F3].
    intros X; inversion X; subst. intros Hi. destruct (H1 _ _ Hi) as [Hi'|Hi']; [eapply F3; eauto|exact Hi'].
  - intros b q. rewrite mget_set. destruct (eq_dec b a) as [->|Ne]; [|intros Gq Oq; left; exists q; auto].
    intros X; inversion X; subst. intros O. left. exists p. destruct (H2 O) as (A & B & C). auto.
Qed.

Lemma frames_insert L s0 s pre cid addr : frames L s0 -> none_of is_qh pre -> rp_peers s = rp_peers s0 ->
  unserved s0 cid -> (forall c, unserved s c -> unserved s0 c) -> frames (L ++ (pre ++ snd (rp_insert s cid addr))) (fst (rp_insert s cid addr)).
Proof using.
  intros F No E U Hu. eapply frames_quiet; [exact F| | | |].
  - intros x Hx. apply in_app_or in Hx. destruct Hx as [Hx|Hx]; [apply No, Hx|]. apply insert_log in Hx. destruct Hx as [-> | (? & _ & _ & ->)]; reflexivity.
  - cbn [rp_insert fst rp_with_peers rp_peers]. rewrite E. destruct F as (_ & _ & F3 & _). intros b q r id. rewrite mget_set. destruct (eq_dec b addr) as [->|Ne]; [|apply F3].
    intros X; inversion X; subst. intros [].
  - cbn [rp_insert fst rp_with_peers rp_peers]. rewrite E. intros b q. rewrite mget_set. destruct (eq_dec b addr) as [->|Ne]; [|intros Gq Oq; left; exists q; auto].
    intros X; inversion X; subst. intros _. right. split; [exact U|reflexivity].
  - intros c Hc. apply Hu. exact Hc.
Qed.

Lemma in_remove_nth {A} (l : list A) k x : In x (firstn k l ++ skipn (S k) l) -> In x l.
Proof using. intros H. rewrite <- (firstn_skipn k l). apply in_app_or in H. apply in_or_app. destruct H as [H|H]; [left; exact H|right]. revert l H. induction k as [|k IH]; intros [|y l] H; cbn in *; auto. Qed.
Lemma unserved_drop_conn s k c : unserved (drop_conn s k) c -> unserved s c.
Proof using. intros [H|[H|H]]; [left; eapply in_remove_nth; exact H|right; left; exact H|right; right; exact H]. Qed.
Lemma unserved_drop_auth s k c : unserved (drop_auth s k) c -> unserved s c.
Proof using.
  intros [H|[H|H]]; [left; exact H| |right; right; exact H]. right; left. cbn [drop_auth rp_auths] in H.
  apply in_map_iff in H. destruct H as (y & <- & H). apply in_map. eapply in_remove_nth; exact H.
Qed.

Lemma frames_prim L s o s' : inv1 L s -> reqs L s -> apps L s -> frames L s -> prim s o s' -> frames (L ++ o) s'.
Proof using.
  intros I (Q1 & Q2 & Q3 & Q4) (A1 & A2 & A3 & A4 & A5) F P. pose proof F as (F1 & F2 & F3 & F4 & F5 & F6).
  prims P.
  - eapply frames_upd; [exact F|nolog|reflexivity|exact G|auto|auto|auto].
  - (* hand *) unfold frames. rewrite queued_rids_app. cbn [queued_rids flat_map]. rewrite app_nil_r.
    assert (Hq : forall c, queued_on c (L ++ [RHanded (pr_cid p) m ok]) = queued_on c L) by (intros c; rewrite queued_on_app; apply app_nil_r).
    cbn [with_stats upd rp_with_peers rp_peers].
    split; [|split; [exact F2|split; [|split; [|split]]]].
    + intros c r m' H. apply in_app_or in H. destruct H as [H|[H|[]]]; [|discriminate].
      destruct (F1 _ _ _ H) as (b & req & x & X1 & X2 & X3). exists b, req, x. split; [apply in_or_app; left; exact X1|]. split; [apply in_or_app; left; exact X2|exact X3].
    + intros b p' r id. rewrite mget_set. destruct (eq_dec b a) as [->|Ne]; [|apply F3]. intros H; inversion H; subst. apply (F3 a p r id G).
    + intros b p'. rewrite mget_set. destruct (eq_dec b a) as [->|Ne]; intros H O'; rewrite Hq, handed_on_app; cbn [handed_on flat_map app]; rewrite app_nil_r.
      * inversion H; subst. cbn [pr_cid pr_egress]. destruct (eq_dec (pr_cid p) (pr_cid p)); [|congruence]. rewrite <- app_assoc. cbn [app]. rewrite (F4 _ _ G Op), E. reflexivity.
      * destruct (eq_dec (pr_cid p) (pr_cid p')) as [Ec|_]; [exfalso; apply Ne; symmetry; eapply open_inj; eauto|]. rewrite app_nil_r. eapply F4; eauto.
    + intros c. rewrite Hq, handed_on_app. cbn [handed_on flat_map app]. rewrite app_nil_r. destruct (eq_dec (pr_cid p) c) as [<-|Ne]; [|rewrite app_nil_r; apply F5].
      exists q. rewrite (F4 _ _ G Op), E, <- app_assoc. reflexivity.
    + intros c U. rewrite Hq. apply F6. exact U.
  - (* queue *)
    assert (Hr : ~ In r (queued_rids L)) by (eapply F3; eauto).
    destruct (Q4 _ _ _ _ G Hi) as (req & Hreq & ->). apply A5 in Os.
    unfold frames. rewrite queued_rids_app. cbn [queued_rids flat_map app].
    assert (Hh : forall c, handed_on c (L ++ [RQueued (pr_cid p) r m]) = handed_on c L) by (intros c; rewrite handed_on_app; apply app_nil_r).
    assert (Hq : forall c, queued_on c (L ++ [RQueued (pr_cid p) r m]) = queued_on c L ++ if eq_dec (pr_cid p) c then [(r, m)] else []).
    { intros c; rewrite queued_on_app. cbn [queued_on flat_map]. rewrite app_nil_r. reflexivity. }
    cbn [upd rp_with_peers rp_peers].
    split; [|split; [apply NoDup_snoc; assumption|split; [|split; [|split]]]].
    + intros c r' m' H. apply in_app_or in H. destruct H as [H|[H|[]]].
      * destruct (F1 _ _ _ H) as (b & req' & x' & X1 & X2 & X3). exists b, req', x'. split; [apply in_or_app; left; exact X1|]. split; [apply in_or_app; left; exact X2|exact X3].
      * inversion H; subst. exists a, req, x. split; [apply in_or_app; left; exact Hreq|]. split; [apply in_or_app; left; exact Os|exact Ro].
    + intros b p' r' id'. rewrite mget_set, in_app_iff. destruct (eq_dec b a) as [->|Ne].
      * intros H; inversion H; subst. cbn [pr_pending]. intros H'. apply in_unpend in H'. destruct H' as [H' Hne]. intros [X|[X|[]]]; [|congruence]. eapply F3; eauto.
      * intros G' H' [X|[<-|[]]]; [eapply F3; eauto|]. destruct (Q4 _ _ _ _ G' H') as (req' & Hreq' & _). destruct (Q2 _ _ _ _ _ _ _ Hreq Hreq') as (_ & E & _). congruence.
    + intros b p'. rewrite mget_set. destruct (eq_dec b a) as [->|Ne]; intros H O'; rewrite Hq, Hh, map_app.
      * inversion H; subst. cbn [pr_cid pr_egress]. destruct (eq_dec (pr_cid p) (pr_cid p)); [|congruence]. cbn [map snd]. rewrite app_assoc. rewrite (F4 _ _ G Op). reflexivity.
      * destruct (eq_dec (pr_cid p) (pr_cid p')) as [Ec|_]; [exfalso; apply Ne; symmetry; eapply open_inj; eauto|]. rewrite app_nil_r. eapply F4; eauto.
    + intros c. rewrite Hq, Hh, map_app. destruct (F5 c) as [rest Hrest]. rewrite Hrest, <- app_assoc. eexists. reflexivity.
    + intros c U. rewrite Hq. destruct (eq_dec (pr_cid p) c) as [<-|Ne]; [exfalso; eapply open_served; eauto|]. rewrite app_nil_r. apply F6, U.
  - eapply frames_upd; [exact F|nolog|reflexivity|exact G| |auto|auto]. cbn [pr_pending]. intros r' id' H. apply in_unpend in H. left; apply H.
  - eapply frames_upd; [exact F|nolog|reflexivity|exact G| |auto|auto]. cbn [pr_pending]. intros r' id' H. apply in_unpend in H. left; apply H.
  - eapply frames_upd; [exact F|nolog|reflexivity|exact G|intros ? ? []|discriminate|auto].
  - set (s1 := upd s a _). destruct (on_request_frame D s1 a (pr_cid p) m) as (_ & J2 & J3 & J4 & _ & _ & J7 & _ & _ & _ & J11).
    set (z := rp_on_request D s1 a (pr_cid p) m) in *. 
    eapply frames_upd; [exact F| |exact J4|exact G| |cbn; auto|].
    + destruct J11 as [(q & -> & _)|(-> & _)]; nolog.
    + cbn [pr_pending]. intros r id H. apply in_app_or in H. destruct H as [H|[H|[]]]; [left; exact H|]. inversion H; subst. right. intros Hin.
      unfold queued_rids in Hin. apply in_flat_map in Hin. destruct Hin as (x & Hx & Hin). destruct x; cbn in Hin; try contradiction. destruct Hin as [Hin|[]]. rewrite Hin in Hx.
      apply F1 in Hx. destruct Hx as (b & req & x & Hx & _). apply Q1 in Hx. revert Hx; apply N.lt_irrefl.
    + intros c. unfold unserved. rewrite J2, J3, J7. auto.
  - eapply frames_quiet; [exact F|nolog| | |auto]; cbn [rp_with_peers rp_peers].
    + intros b q r id. rewrite mget_del. destruct (eq_dec b a); [discriminate|apply F3].
    + intros b q. rewrite mget_del. destruct (eq_dec b a); [discriminate|]. intros Gq Oq. left. exists q; auto.
  - eapply frames_insert; [exact F|nolog|reflexivity| |apply unserved_drop_auth]. right; left. apply nth_error_In in Nk. apply (in_map fst) in Nk. exact Nk.
  - eapply frames_same; [exact F|nolog|reflexivity|]. intros c H. eapply unserved_drop_auth. exact H.
  - eapply frames_same; [exact F|nolog|reflexivity|]. intros c H. eapply unserved_drop_auth. exact H.
  - eapply frames_same; [exact F|nolog|reflexivity|]. intros c H. eapply unserved_drop_conn. exact H.
  - eapply frames_same; [exact F|nolog|reflexivity|]. intros c [H|[H|H]].
    + left. eapply in_remove_nth. exact H.
    + cbn [add_auth rp_auths] in H. rewrite map_app in H. apply in_app_or in H. destruct H as [H|[<-|[]]]; [right; left; exact H|]. left. eapply nth_error_In; eauto.
    + right; right; exact H.
  - rewrite <- (app_nil_l (snd _)). eapply frames_insert; [exact F|nolog|reflexivity| |apply unserved_drop_conn]. left. eapply nth_error_In; eauto.
  - eapply frames_same; [exact F|nolog|reflexivity|auto].
  - eapply frames_same; [exact F|nolog|reflexivity|]. intros c [H|[H|H]].
    + cbn in H. apply in_app_or in H. destruct H as [H|[<-|[]]]; [left; exact H|right; right; lia].
    + right; left; exact H.
    + right; right. cbn in H. lia.
  - eapply frames_same; [exact F|nolog|reflexivity|auto].
  - eapply frames_same; [exact F|nolog|reflexivity|auto].
  - eapply frames_same; [exact F|nolog|reflexivity|auto].
  - eapply frames_same; [exact F|nolog|reflexivity|auto].
  - eapply frames_same; [exact F|apply drop_log; reflexivity|reflexivity|auto].
Qed.

(** ** What becomes of a response *)
Definition waiting (s : rp) (c a r : N) (req : rr_msg) : Prop :=
  exists p, mget a (rp_peers s) = Some p /\ pr_open p = true /\ pr_cid p = c /\ In (r, rr_id req) (pr_pending p).
Definition settled (L : list rout) (s : rp) (r : N) (x : bytes) (c a : N) (req : rr_msg) : Prop :=
  (exists m, In (RQueued c r m) L) \/ (In (RUnsendable c r) L /\ rep_outgoing min co (rr_id req) x = None) \/ In c (ended L) \/ waiting s c a r req.
Definition fate (L : list rout) (s : rp) : Prop :=
  forall r x c a req, In (RResponded r x true) L -> In (RIncoming c a r req) L -> settled L s r x c a req.

Lemma settled_mono L o s s' r x c a req : settled L s r x c a req -> (waiting s c a r req -> settled (L ++ o) s' r x c a req) -> settled (L ++ o) s' r x c a req.
Proof using.
  intros [(m & H)|[(H & H')|[H|H]]] W; [left; exists m; apply in_or_app; left; exact H|right; left; split; [apply in_or_app; left; exact H|exact H']| |apply W, H].
  right; right; left. rewrite ended_app. apply in_or_app; left; exact H.
Qed.
Definition is_ri (x : rout) : bool := is_resp x || is_inc x.
Lemma fate_step L s o s' : fate L s -> none_of is_ri o ->
  (forall r x c a req, In (RResponded r x true) L -> In (RIncoming c a r req) L -> waiting s c a r req -> settled (L ++ o) s' r x c a req) -> fate (L ++ o) s'.
Proof using.
  intros F No H r x c a req H1 H2. apply (in_none is_ri) in H1; [|exact No|reflexivity]. apply (in_none is_ri) in H2; [|exact No|reflexivity].
  eapply settled_mono; [apply F; eauto|]. apply H; assumption.
Qed.
Lemma waiting_keep s s' c a r req : rp_peers s' = rp_peers s -> waiting s c a r req -> waiting s' c a r req.
Proof using. intros E (p & X). exists p. rewrite E. exact X. Qed.
Lemma fate_same L s o s' : fate L s -> none_of is_ri o -> rp_peers s' = rp_peers s -> fate (L ++ o) s'.
Proof using. intros F No E. eapply fate_step; [exact F|exact No|]. intros r x c a req _ _ W. right; right; right. eapply waiting_keep; eauto. Qed.
(** The open peer [p] at [a0] becomes [p'], still open, keeping all pending requests but [r0]. *)
Lemma waiting_upd s s' a0 p p' c a r req : rp_peers s' = mset a0 p' (rp_peers s) -> mget a0 (rp_peers s) = Some p -> pr_open p' = true -> pr_cid p' = pr_cid p ->
  waiting s c a r req -> waiting s' c a r req \/ (a = a0 /\ c = pr_cid p /\ In (r, rr_id req) (pr_pending p) /\ ~ In (r, rr_id req) (pr_pending p')).
Proof using.
  intros E G O C (q & G' & O' & C' & H). destruct (N.eq_dec a a0) as [->|Ne].
  - rewrite G in G'. inversion G'; subst q. destruct (in_dec eq_dec (r, rr_id req) (pr_pending p')) as [I|I]; [|right; auto].
    left. exists p'. rewrite E, mget_set_eq. split; [reflexivity|]. split; [exact O|]. split; [congruence|exact I].
  - left. exists q. rewrite E, mget_set_ne by exact Ne. auto.
Qed.
Lemma fate_keep L s o s' a0 p p' : fate L s -> none_of is_ri o -> rp_peers s' = mset a0 p' (rp_peers s) -> mget a0 (rp_peers s) = Some p -> pr_open p' = true -> pr_cid p' = pr_cid p ->
  pr_pending p' = pr_pending p -> fate (L ++ o) s'.
Proof using.
  intros F No E G O C Pe. eapply fate_step; [exact F|exact No|]. intros r x c a req _ _ W.
  destruct (waiting_upd _ _ _ _ _ _ _ _ _ E G O C W) as [W'|(_ & _ & X & Y)]; [right; right; right; exact W'|congruence].
Qed.
Lemma fate_insert L s0 s pre cid addr : fate L s0 -> none_of is_ri pre -> rp_peers s = rp_peers s0 ->
  fate (L ++ (pre ++ snd (rp_insert s cid addr))) (fst (rp_insert s cid addr)).
Proof using.
  intros F No E. eapply fate_step; [exact F| |].
  - intros x Hx. apply in_app_or in Hx. destruct Hx as [Hx|Hx]; [apply No, Hx|]. apply insert_log in Hx. destruct Hx as [-> | (? & _ & _ & ->)]; reflexivity.
  - intros r x c a req _ _ (p & G & O & C & H). destruct (N.eq_dec a addr) as [->|Ne].
    + right; right; left. rewrite !ended_app. apply in_or_app; right. apply in_or_app; right. cbn [rp_insert snd]. rewrite E, G, O. cbn. left; exact C.
    + right; right; right. exists p. cbn [rp_insert fst rp_with_peers rp_peers]. rewrite mget_set_ne by exact Ne. rewrite E. auto.
Qed.

Lemma fate_prim L s o s' : NoDup (mkeys (rp_peers s)) -> reqs L s -> apps L s -> fate L s -> prim s o s' -> fate (L ++ o) s'.
Proof using.
  intros Nk0 (Q1 & Q2 & Q3 & Q4) (A1 & A2 & A3 & A4 & A5) F P.
  prims P.
  - eapply fate_keep; [exact F|nolog|reflexivity|exact G|reflexivity..].
  - eapply fate_keep; [exact F|nolog|reflexivity|exact G|reflexivity..].
  - eapply fate_step; [exact F|nolog|]. intros r' x' c a' req H1 H2 W.
    match goal with |- settled _ ?s2 _ _ _ _ _ => eapply (waiting_upd s s2) in W end; [|reflexivity|exact G|reflexivity|reflexivity]. destruct W as [W|(-> & -> & X & Y)]; [right; right; right; exact W|].
    left. destruct (N.eq_dec r' r) as [->|Ne]; [exists m; apply in_or_app; right; left; reflexivity|]. exfalso. apply Y. cbn [pr_pending]. apply in_unpend. auto.
  - eapply fate_step; [exact F|nolog|]. intros r' x' c a' req H1 H2 W.
    match goal with |- settled _ ?s2 _ _ _ _ _ => eapply (waiting_upd s s2) in W end; [|reflexivity|exact G|reflexivity|reflexivity]. destruct W as [W|(-> & -> & X & Y)]; [right; right; right; exact W|].
    right; left. destruct (N.eq_dec r' r) as [->|Ne]; [|exfalso; apply Y; cbn [pr_pending]; apply in_unpend; auto].
    split; [apply in_or_app; right; left; reflexivity|]. apply A5 in H1. rewrite H1 in Os; inversion Os; subst.
    destruct (Q4 _ _ _ _ G Hi) as (req' & Hreq & ->). destruct (Q2 _ _ _ _ _ _ _ Hreq H2) as (_ & _ & ->). exact Ro.
  - eapply fate_step; [exact F|nolog|]. intros r' x' c a' req H1 H2 W.
    match goal with |- settled _ ?s2 _ _ _ _ _ => eapply (waiting_upd s s2) in W end; [|reflexivity|exact G|reflexivity|reflexivity]. destruct W as [W|(-> & -> & X & Y)]; [right; right; right; exact W|]. exfalso.
    destruct (N.eq_dec r' r) as [->|Ne]; [|apply Y; cbn [pr_pending]; apply in_unpend; auto]. apply A5 in H1. eapply Os2; eauto.
  - eapply fate_step; [exact F|nolog|]. intros r' x' c a' req H1 H2 (q & G' & O' & C' & H). destruct (N.eq_dec a' a) as [->|Ne].
    + right; right; left. rewrite ended_app. apply in_or_app; right. cbn. left. congruence.
    + right; right; right. exists q. cbn. rewrite mget_set_ne by exact Ne. auto.
  - set (s1 := upd s a _). destruct (on_request_frame D s1 a (pr_cid p) m) as (_ & _ & _ & J4 & _ & _ & _ & _ & _ & _ & J11).
    set (z := rp_on_request D s1 a (pr_cid p) m) in *. change (rp_next_rid s1) with (rp_next_rid s) in *.
    intros r x c b req H1 H2.
    assert (H1' : In (RResponded r x true) L).
    { apply in_app_or in H1. destruct H1 as [H1|H1]; [exact H1|]. exfalso. destruct J11 as [(q & E & _)|(E & _)]; rewrite E in H1; destruct H1 as [H1|[H1|[]]]; discriminate. }
    assert (H2' : In (RIncoming c b r req) L).
    { apply in_app_or in H2. destruct H2 as [H2|H2]; [exact H2|]. exfalso. apply A5, A4 in H1'.
      destruct J11 as [(q & E & _)|(E & _)]; rewrite E in H2; destruct H2 as [H2|[H2|[]]]; inversion H2; lia. }
    eapply settled_mono; [apply F; eauto|]. intros W. right; right; right.
    eapply (waiting_upd s (fst z)) in W; [|exact J4|exact G|reflexivity|reflexivity]. destruct W as [W|(-> & -> & X & Y)]; [exact W|].
    exfalso. apply Y. cbn [pr_pending]. apply in_or_app; left; exact X.
  - eapply fate_step; [exact F|nolog|]. intros r' x' c a' req H1 H2 (q & G' & O' & C' & H). right; right; right. exists q. cbn [rp_with_peers rp_peers].
    rewrite mget_del_ne; [auto|]. intros ->. congruence.
  - eapply fate_insert; [exact F|nolog|reflexivity].
  - eapply fate_same; [exact F|nolog|reflexivity].
  - eapply fate_same; [exact F|nolog|reflexivity].
  - eapply fate_same; [exact F|nolog|reflexivity].
  - eapply fate_same; [exact F|nolog|reflexivity].
  - rewrite <- (app_nil_l (snd _)). eapply fate_insert; [exact F|nolog|reflexivity].
  - eapply fate_same; [exact F|nolog|reflexivity].
  - eapply fate_same; [exact F|nolog|reflexivity].
  - eapply fate_same; [exact F|nolog|reflexivity].
  - intros r x' c a req H1 H2. apply in_app_or in H2. destruct H2 as [H2|[H2|[]]]; [|discriminate].
    apply in_app_or in H1. destruct H1 as [H1|[H1|[]]].
    + eapply settled_mono; [apply F; eauto|]. intros W. right; right; right. exact W.
    + inversion H1; subst. right; right; right. unfold os_receiver in Or. apply existsb_exists in Or. destruct Or as ([a' p] & Hp & He). cbn [snd] in He.
      apply existsb_exists in He. destruct He as ([r' id] & Hr & He). cbn [fst] in He. apply N.eqb_eq in He. subst r'.
      apply (in_mget a' p) in Hp; [|exact Nk0]. destruct (Q4 _ _ _ _ Hp Hr) as (m & Hm & ->). destruct (Q2 _ _ _ _ _ _ _ Hm H2) as (<- & -> & ->).
      exists p. cbn [rp_set_app rp_peers]. split; [exact Hp|]. split; [|auto]. destruct (pr_open p) eqn:Op; [reflexivity|]. destruct (Q3 _ _ Hp Op) as [E _]. rewrite E in Hr. destruct Hr.
  - eapply fate_same; [exact F|nolog|reflexivity].
  - eapply fate_same; [exact F|nolog|reflexivity].
  - eapply fate_same; [exact F|apply drop_log; reflexivity|reflexivity].
Qed.

Definition inv2 (L : list rout) (s : rp) : Prop := inv1 L s /\ reqs L s /\ apps L s /\ frames L s /\ fate L s.
Lemma run_inv2 evs s L : rp_run max min auth co D rp_init evs = (s, L) -> inv2 L s.
Proof using.
  apply (run_inv max min auth co D inv2).
  - intros L0 s0 o s1 (I & Q & A & F & T) P. split; [eapply inv1_prim; eauto|]. split; [eapply reqs_prim; eauto|]. split; [eapply apps_prim; eauto|].
    split; [eapply frames_prim; eauto|]. eapply fate_prim; eauto. apply I.
  - split; [split; [constructor|]; split; [constructor|]; split; [intros c []|]; split; [constructor|reflexivity]|].
    split; [split; [intros ? ? ? ? []|]; split; [intros ? ? ? ? ? ? ? []|]; split; discriminate|].
    split; [split; [intros ? []|]; split; [intros ? []|]; split; [constructor|]; split; [discriminate|]; intros r x; split; [discriminate|intros []]|].
    split; [|intros ? ? ? ? ? []]. split; [intros ? ? ? []|]. split; [constructor|]. split; [discriminate|]. split; [discriminate|]. split; [intros c; exists []; reflexivity|reflexivity].
Qed.
End P.
