(** Invariants of the reply driver, part 6: requests that wait for the application. *)
From Coq Require Import ZArith Permutation.
From Verif Require Import Model.Base Model.Map Model.WireReqRep Model.Compression Model.Stats Model.Framed Model.WireAuth
  Model.Handshake Model.ReqDriver Model.RepDriver Spec.CompressSpec Spec.RepSpec Proofs.BaseP Proofs.MapP Proofs.RepDriverP Proofs.RepDriverP2 Proofs.RepDriverP3 Proofs.RepDriverP5.
Local Open Scope N_scope.

Section P.
Variables (max : option N) (min : N) (auth : option (bytes -> bool)) (co : option compressor) (D : decompressors).
Notation prim := (prim max min auth co D).
Ltac nolog := let x := fresh in let H := fresh in intros x H; cbn [In app] in H; repeat (destruct H as [<-|H]; [reflexivity|]); try destruct H.
Ltac noins := let x := fresh in let H := fresh in intros x H; try (apply in_app_or in H; destruct H as [[<-|[<-|[]]]|H]; [reflexivity|reflexivity|]);
  apply insert_log in H; destruct H as [-> | (? & _ & _ & ->)]; reflexivity.
Ltac prims P := destruct P as [s a p G Op|s a p m q ok G Op E|s a p r id x m G Op Hi Os Ro|s a p r id x G Op Hi Os Ro|s a p r id G Op Hi Os1 Os2|s a p G Op|s a p m G Op|s a p G Op
    |s k cid addr au i b id w rest Nk Au As|s k cid addr au i b w rest Nk Au As|s k cid addr au i b w rest Nk Au As|s k cid Nk|s k cid addr Nk Au|s k cid addr Nk Au
    |s|s Hm|s q rest Ch|s rid x Hh Or|s rid x Hh Or|s rid Hh|s].

Definition in_hand (s : rp) (r : N) : Prop := In r (rp_held s) \/ In r (map q_rid (rp_chan s)).
Definition waits (L : list rout) (s : rp) : Prop :=
  (forall r, mget r (rp_os s) = Some OsWait -> in_hand s r) /\
  (forall c a r m, In (RIncoming c a r m) L -> mget r (rp_os s) = Some OsWait -> In c (ended L) \/ waiting s c a r m) /\
  (forall r x c a m, In (RResponded r x false) L -> In (RIncoming c a r m) L -> In c (ended L)).

Definition is_il (x : rout) : bool := is_inc x || is_late x.
Lemma waits_step L s o s' : waits L s -> none_of is_il o ->
  (forall r, mget r (rp_os s') = Some OsWait -> mget r (rp_os s) = Some OsWait) ->
  (forall r, mget r (rp_os s') = Some OsWait -> in_hand s r -> in_hand s' r) ->
  (forall c a r m, mget r (rp_os s') = Some OsWait -> waiting s c a r m -> waiting s' c a r m \/ In c (ended o)) -> waits (L ++ o) s'.
Proof using.
  intros (W1 & W2 & W3) No Ho Hh Hw. split; [intros r X; apply Hh; [exact X|]; apply W1, Ho, X|]. split.
  - intros c a r m X Y. apply (in_none is_il) in X; [|exact No|reflexivity]. rewrite ended_app. destruct (W2 _ _ _ _ X (Ho _ Y)) as [Z|Z]; [left; apply in_or_app; auto|].
    destruct (Hw _ _ _ _ Y Z) as [Z'|Z']; [right; exact Z'|left; apply in_or_app; auto].
  - intros r x c a m X Y. apply (in_none is_il) in X; [|exact No|reflexivity]. apply (in_none is_il) in Y; [|exact No|reflexivity]. rewrite ended_app. apply in_or_app. left. eapply W3; eauto.
Qed.
Lemma waits_same L s o s' : waits L s -> none_of is_il o -> rp_os s' = rp_os s -> rp_held s' = rp_held s -> rp_chan s' = rp_chan s -> rp_peers s' = rp_peers s -> waits (L ++ o) s'.
Proof using.
  intros W No E1 E2 E3 E4. eapply waits_step; [exact W|exact No|rewrite E1; auto|unfold in_hand; rewrite E2, E3; auto|]. intros c a r m _ X. left. eapply waiting_keep; eauto.
Qed.
Lemma waits_upd L s o s' a0 p p' : waits L s -> none_of is_il o -> rp_os s' = rp_os s -> rp_held s' = rp_held s -> rp_chan s' = rp_chan s ->
  rp_peers s' = mset a0 p' (rp_peers s) -> mget a0 (rp_peers s) = Some p -> pr_open p' = true -> pr_cid p' = pr_cid p ->
  (forall r id, mget r (rp_os s) = Some OsWait -> In (r, id) (pr_pending p) -> In (r, id) (pr_pending p')) -> waits (L ++ o) s'.
Proof using.
  intros W No E1 E2 E3 E4 G Op C K. eapply waits_step; [exact W|exact No|rewrite E1; auto|unfold in_hand; rewrite E2, E3; auto|]. intros c a r m X Y. left. rewrite E1 in X.
  destruct (waiting_upd _ _ _ _ _ _ _ _ _ E4 G Op C Y) as [Z|(_ & _ & Z1 & Z2)]; [exact Z|]. exfalso. apply Z2, K; assumption.
Qed.
Lemma waits_insert L s0 s pre cid addr : waits L s0 -> none_of is_il pre -> rp_os s = rp_os s0 -> rp_held s = rp_held s0 -> rp_chan s = rp_chan s0 -> rp_peers s = rp_peers s0 ->
  waits (L ++ (pre ++ snd (rp_insert s cid addr))) (fst (rp_insert s cid addr)).
Proof using.
  intros W No E1 E2 E3 E4. eapply waits_step; [exact W| |cbn; rewrite E1; auto|unfold in_hand; cbn; rewrite E2, E3; auto|].
  - intros x Hx. apply in_app_or in Hx. destruct Hx as [Hx|Hx]; [apply No, Hx|]. apply insert_log in Hx. destruct Hx as [-> | (? & _ & _ & ->)]; reflexivity.
  - intros c a r m _ (p & G & O & C & H). destruct (N.eq_dec a addr) as [->|Ne].
    + right. rewrite ended_app. apply in_or_app; right. cbn [rp_insert snd]. rewrite E4, G, O. cbn. left; exact C.
    + left. exists p. cbn [rp_insert fst rp_with_peers rp_peers]. rewrite mget_set_ne by exact Ne. rewrite E4. auto.
Qed.

Lemma waits_prim L s o s' : inv3 min co D L s -> waits L s -> prim s o s' -> waits (L ++ o) s'.
Proof using.
  intros ((I1 & (Q1 & Q2 & Q3 & Q4) & (A1 & A2 & A3 & A4 & A5) & _ & _) & _ & (D1 & D2 & D3 & D4) & _) W P. pose proof W as (W1 & W2 & W3).
  prims P.
  - eapply (waits_upd _ s _ _ a p); [exact W|nolog|reflexivity..|exact G|reflexivity|reflexivity|cbn; auto].
  - eapply (waits_upd _ s _ _ a p); [exact W|nolog|reflexivity..|exact G|reflexivity|reflexivity|cbn; auto].
  - eapply (waits_upd _ s _ _ a p); [exact W|nolog|reflexivity..|exact G|reflexivity|reflexivity|]. cbn [pr_pending]. intros r1 id1 X Y. apply in_unpend. split; [exact Y|]. intros ->. congruence.
  - eapply (waits_upd _ s _ _ a p); [exact W|nolog|reflexivity..|exact G|reflexivity|reflexivity|]. cbn [pr_pending]. intros r1 id1 X Y. apply in_unpend. split; [exact Y|]. intros ->. congruence.
  - eapply (waits_upd _ s _ _ a p); [exact W|nolog|reflexivity..|exact G|reflexivity|reflexivity|]. cbn [pr_pending]. intros r1 id1 X Y. apply in_unpend. split; [exact Y|]. intros ->. congruence.
  - eapply waits_step; [exact W|nolog|auto|auto|]. intros c a' r m _ (q & G' & O' & C' & H). destruct (N.eq_dec a' a) as [->|Ne].
    + right. cbn. left. congruence.
    + left. exists q. cbn. rewrite mget_set_ne by exact Ne. auto.
  - set (s1 := upd s a _). destruct (on_request_frame D s1 a (pr_cid p) m) as (_ & _ & _ & J4 & J5 & J6 & _ & _ & _ & _ & J11).
    set (z := rp_on_request D s1 a (pr_cid p) m) in *. change (rp_next_rid s1) with (rp_next_rid s) in *. change (rp_os s1) with (rp_os s) in *. change (rp_chan s1) with (rp_chan s) in *. change (rp_held s1) with (rp_held s) in *.
    assert (Ho : exists v y, rp_os (fst z) = mset (rp_next_rid s) v (rp_os s) /\ snd z = [RIncoming (pr_cid p) a (rp_next_rid s) m; y] /\ is_il y = false /\
       (forall r, in_hand s r -> in_hand (fst z) r) /\ (v = OsWait -> in_hand (fst z) (rp_next_rid s))).
    { unfold in_hand. rewrite J5. destruct J11 as [(q & -> & Eq & _ & _ & _ & -> & ->)|(-> & _ & -> & ->)]; eexists _, _; (split; [reflexivity|]); (split; [reflexivity|]); (split; [reflexivity|]); rewrite ?map_app; (split; [|]).
      - intros r X. rewrite in_app_iff. tauto.
      - intros _. right. apply in_or_app. right. left. exact Eq.
      - auto.
      - discriminate. }
    destruct Ho as (v & y & Ho & X1 & X2 & X3 & X4).
    assert (Kw : forall c b r m', waiting s c b r m' -> waiting (fst z) c b r m').
    { intros c b r m' Y. eapply (waiting_upd s (fst z)) in Y; [|exact J4|exact G|reflexivity|reflexivity]. destruct Y as [Y|(_ & _ & Y1 & Y2)]; [exact Y|]. exfalso. apply Y2. cbn [pr_pending]. apply in_or_app. left. exact Y1. }
    assert (Hl : forall z' x c b r m', In z' (L ++ snd z) -> z' = RResponded r x false \/ z' = RIncoming c b r m' -> In z' L \/ z' = RIncoming (pr_cid p) a (rp_next_rid s) m).
    { intros z' x c b r m' Y Z. rewrite X1 in Y. apply in_app_or in Y. destruct Y as [Y|[Y|[Y|[]]]]; [auto|auto|]. subst z'. exfalso. destruct Z as [-> | ->]; discriminate. }
    split; [|split].
    + intros r. rewrite Ho, mget_set. destruct (eq_dec r (rp_next_rid s)) as [->|Ne]; [intros Y; inversion Y; subst; apply X4; reflexivity|]. intros Y. apply X3, W1, Y.
    + intros c b r m' Y. rewrite Ho, mget_set. rewrite ended_app. destruct (Hl _ [] c b r m' Y (or_intror eq_refl)) as [Y'|Y'].
      * destruct (eq_dec r (rp_next_rid s)) as [->|Ne]; [exfalso; apply Q1 in Y'; lia|]. intros Z. destruct (W2 _ _ _ _ Y' Z) as [Z'|Z']; [left; apply in_or_app; auto|right; auto].
      * inversion Y'; subst. intros _. right. exists (mkPeer (pr_cid p) (pr_pending p ++ [(rp_next_rid s, rr_id m)]) (pr_egress p) (pr_flush p) true). rewrite J4. unfold s1. cbn [upd rp_with_peers rp_peers]. rewrite mget_set_eq.
        split; [reflexivity|]. split; [reflexivity|]. split; [reflexivity|]. cbn [pr_pending]. apply in_or_app. right. left. reflexivity.
    + intros r x c b m' Y Z. rewrite ended_app. apply in_or_app. left. destruct (Hl _ x c b r m' Y (or_introl eq_refl)) as [Y'|Y']; [|discriminate]. destruct (Hl _ [] c b r m' Z (or_intror eq_refl)) as [Z'|Z']; [eapply W3; eauto|].
      inversion Z'; subst. apply D4 in Y'. lia.
  - eapply waits_step; [exact W|nolog|auto|auto|]. intros c a' r m _ (q & G' & O' & C' & H). left. exists q. cbn [rp_with_peers rp_peers]. rewrite mget_del_ne; [auto|]. intros ->. congruence.
  - eapply waits_insert; [exact W|nolog|reflexivity..].
  - eapply waits_same; [exact W|nolog|reflexivity..].
  - eapply waits_same; [exact W|nolog|reflexivity..].
  - eapply waits_same; [exact W|nolog|reflexivity..].
  - eapply waits_same; [exact W|nolog|reflexivity..].
  - rewrite <- (app_nil_l (snd _)). eapply waits_insert; [exact W|nolog|reflexivity..].
  - eapply waits_same; [exact W|nolog|reflexivity..].
  - eapply waits_same; [exact W|nolog|reflexivity..].
  - eapply waits_step; [exact W|nolog|auto| |]; [|intros c a r m _ X; left; eapply waiting_keep; [reflexivity|exact X]].
    intros r _. unfold in_hand. cbn [rp_set_app rp_held rp_chan]. rewrite Ch. cbn [map In]. tauto.
  - eapply waits_step; [exact W|nolog| | |]; [| |intros c a r m _ X; left; eapply waiting_keep; [reflexivity|exact X]]; intros r; cbn [rp_set_app rp_os]; rewrite mget_set; destruct (eq_dec r rid) as [->|Ne]; try discriminate; [auto|].
    intros _. unfold in_hand. cbn [rp_set_app rp_held rp_chan]. intros [X|X]; [left|right; exact X]. apply in_in_remove; [exact Ne|exact X].
  - assert (K : waits (L ++ []) (rp_set_app s (rp_chan s) (sdel rid (rp_held s)) (mset rid OsDropped (rp_os s)) (rp_dropped s))).
    { eapply waits_step; [exact W|nolog| | |]; [| |intros c a r m _ X; left; eapply waiting_keep; [reflexivity|exact X]]; intros r; cbn [rp_set_app rp_os]; rewrite mget_set; destruct (eq_dec r rid) as [->|Ne]; try discriminate; [auto|].
      intros _. unfold in_hand. cbn [rp_set_app rp_held rp_chan]. intros [X|X]; [left|right; exact X]. apply in_in_remove; [exact Ne|exact X]. }
    rewrite app_nil_r in K. destruct K as (K1 & K2 & K3). split; [exact K1|]. split.
    + intros c a r m X Y. rewrite ended_app, app_nil_r. apply in_app_or in X. destruct X as [X|[X|[]]]; [|discriminate]. eapply K2; eauto.
    + intros r y c a m X Y. rewrite ended_app, app_nil_r. apply in_app_or in Y. destruct Y as [Y|[Y|[]]]; [|discriminate]. apply in_app_or in X. destruct X as [X|[X|[]]]; [eapply K3; eauto|]. inversion X; subst r y.
      destruct (W2 _ _ _ _ Y (A1 _ Hh)) as [Z|(p & G & _ & _ & Z)]; [exact Z|]. exfalso. assert (os_receiver s rid = true); [|congruence]. unfold os_receiver. apply existsb_exists. exists (a, p). split; [apply mget_in, G|]. cbn [snd]. apply existsb_exists.
      eexists. split; [exact Z|]. apply N.eqb_refl.
  - eapply waits_step; [exact W|nolog| | |]; [| |intros c a r m _ X; left; eapply waiting_keep; [reflexivity|exact X]]; intros r; cbn [rp_set_app rp_os]; rewrite mget_set; destruct (eq_dec r rid) as [->|Ne]; try discriminate; [auto|].
    intros _. unfold in_hand. cbn [rp_set_app rp_held rp_chan]. intros [X|X]; [left|right; exact X]. apply in_in_remove; [exact Ne|exact X].
  - eapply waits_step; [exact W|apply drop_log; reflexivity| | |]; [| |intros c a r m _ X; left; eapply waiting_keep; [reflexivity|exact X]]; intros r; cbn [rp_set_app rp_os]; rewrite fold_dropped_get; destruct (in_dec eq_dec r _) as [X|X]; try discriminate; [auto|].
    intros _ [Y|Y]; [left; exact Y|contradiction].
Qed.
Lemma run_waits evs s L : rp_run max min auth co D rp_init evs = (s, L) -> inv3 min co D L s /\ waits L s.
Proof using.
  apply (run_inv max min auth co D (fun L s => inv3 min co D L s /\ waits L s)).
  - intros L0 s0 o s' [I W] P. split; [eapply inv3_prim; eauto|eapply waits_prim; eauto].
  - split; [eapply inv3_init; [exact max|exact auth]|]. split; [discriminate|]. split; [intros ? ? ? ? []|intros ? ? ? ? ? []].
Qed.

(** A frame that could not be written ends the connection. *)
Lemma failed_gone ev s s' o c m : rp_act max min auth co D s ev = (s', o) -> In (RHanded c m false) o -> In (RGone c) o.
Proof using.
  destruct ev as [a e|k i b|k r| | |rid x|rid|]; cbn [rp_act].
  - destruct (rp_peer min co D a e s) as [[s1 o1] st] eqn:P. intros H; inversion H; subst. clear H. unfold rp_peer in P.
    destruct (mget a (rp_peers s)) as [p|]; [|inversion P; subst; intros []]. destruct (pr_open p); [|inversion P; subst; intros []].
    destruct (peer_iter min co e (rp_os s) (rp_next_rid s) p (rp_tx s) (rp_failed s)) as [[[[p' tx] fl] o2] r] eqn:I.
    assert (K : forall c m, In (RHanded c m false) o2 -> c = pr_cid p /\ r = PNone).
    { clear P. intros c0 m0. revert I. unfold peer_iter. cbv zeta.
      set (p1 := if pr_flush p && p_flush_ok e then _ else p). assert (E : pr_cid p1 = pr_cid p) by (unfold p1; destruct (pr_flush p && p_flush_ok e); reflexivity). rewrite <- E. clearbody p1. clear E.
      destruct (if p_ready e then pr_egress p1 else []) as [|m1 q1].
      - destruct (pick (p_pref e) (rp_os s) (pr_pending p1)) as [[r1 id1]|]; [destruct (mget r1 (rp_os s)) as [[|x|]|]|];
        try (destruct (rep_outgoing min co id1 x)); try (destruct (p_next e)); intros I; inversion I; subst; intros H; repeat (destruct H as [H|H]; [discriminate|]); destruct H.
      - destruct (p_send e); intros I; inversion I; subst; intros [H|[]]; inversion H; subst; auto. }
    destruct r as [|m1| | |]; try (inversion P; subst; intros H; apply K in H; destruct H; discriminate).
    + destruct (rp_on_request D _ a (pr_cid p) m1) as [s2 o3] eqn:R. inversion P; subst. intros H. apply in_app_or in H. destruct H as [H|H]; [apply K in H; destruct H; discriminate|].
      exfalso. revert R H. unfold rp_on_request. destruct (try_decompress D (rr_ctype m1) (rr_payload m1)); [destruct (rp_dropped _ || _)|]; intros R; inversion R; subst; intros H; repeat (destruct H as [H|H]; [discriminate|]); destruct H.
    + inversion P; subst. intros H. apply in_app_or in H. destruct H as [H|[H|[]]]; [|discriminate]. destruct (K _ _ H) as [-> _]. apply in_or_app. right. left. reflexivity.
  - destruct (rp_auth auth k i b s) as [[s1 o1] st] eqn:P. intros H; inversion H; subst. intros X. exfalso. revert P X. unfold rp_auth.
    destruct (nth_error (rp_auths s) k) as [[cid addr]|]; [|intros P; inversion P; subst; intros []]. destruct auth as [au|]; [|intros P; inversion P; subst; intros []].
    destruct (auth_server au b i) as [[[id| | |] w] rest]; intros P; inversion P; subst; intros X; repeat (destruct X as [X|X]; [discriminate|]); try destruct X.
    destruct (mget addr _) as [p0|]; [destruct (pr_open p0)|]; repeat (destruct X as [X|X]; [discriminate|]); try destruct X.
  - destruct (rp_conn auth k r s) as [[s1 o1] st] eqn:P. intros H; inversion H; subst. intros X. exfalso. revert P X. unfold rp_conn.
    destruct (nth_error (rp_conns s) k) as [cid|]; [|intros P; inversion P; subst; intros []]. destruct r as [[addr|]|]; [|intros P; inversion P; subst; intros X; repeat (destruct X as [X|X]; [discriminate|]); destruct X..].
    destruct auth as [au|]; intros P; inversion P; subst; intros X; repeat (destruct X as [X|X]; [discriminate|]); try destruct X.
    destruct (mget addr _) as [p0|]; [destruct (pr_open p0)|]; repeat (destruct X as [X|X]; [discriminate|]); try destruct X.
  - unfold rp_accept. destruct (match max with Some m0 => m0 <=? rp_active s | None => false end); intros P; inversion P; subst; intros [X|[]]; discriminate.
  - destruct (rp_chan s); intros P; inversion P; subst; [intros []|intros [X|[]]; discriminate].
  - destruct (smem rid (rp_held s)); [destruct (os_receiver s rid)|]; intros P; inversion P; subst; intros X; repeat (destruct X as [X|X]; [discriminate|]); destruct X.
  - destruct (smem rid (rp_held s)); intros P; inversion P; subst; intros X; repeat (destruct X as [X|X]; [discriminate|]); destruct X.
  - intros P; inversion P; subst. intros [X|X]; [discriminate|]. apply in_map_iff in X. destruct X as (q & X & _). discriminate.
Qed.
Lemma run_failed evs : forall s s' L c m, rp_run max min auth co D s evs = (s', L) -> In (RHanded c m false) L -> In c (ended L).
Proof using.
  induction evs as [|ev evs IH]; intros s s' L c m; cbn [rp_run]; [intros H; inversion H; subst; intros []|].
  destruct (rp_act max min auth co D s ev) as [s1 o1] eqn:A. destruct (rp_run max min auth co D s1 evs) as [s2 o2] eqn:R. intros H; inversion H; subst. intros X. rewrite ended_app. apply in_or_app.
  apply in_app_or in X. destruct X as [X|X]; [left|right; eapply IH; eauto]. eapply failed_gone in X; [|exact A]. unfold ended. apply in_flat_map. exists (RGone c). split; [exact X|left; reflexivity].
Qed.

(** What has become of a request that came in on a connection which is still open and has nothing to do. *)
Lemma idle_request evs s L c a r req p : rp_run max min auth co D rp_init evs = (s, L) -> In (RIncoming c a r req) L ->
  mget a (rp_peers s) = Some p -> pr_cid p = c -> pr_open p = true -> pr_egress p = [] -> (forall e, In e (pr_pending p) -> os_done (rp_os s) e = false) ->
  in_hand s r \/ In (RLost r) L \/ In (RDiscarded r) L \/ In (RUnsendable c r) L \/ exists m, rr_id m = rr_id req /\ In (RHanded c m true) L.
Proof using.
  intros R Hi G Ec Op Eg Pe. destruct (run_waits _ _ _ R) as [((I1 & (Q1 & Q2 & Q3 & Q4) & (A1 & A2 & A3 & A4 & A5) & (F1 & F2 & F3 & F4 & _) & Ft) & _ & (D1 & D2 & D3 & D4) & _) (W1 & W2 & W3)].
  assert (Ne : ~ In c (ended L)). { eapply inv1_disj; [exact I1|]. subst c. eapply open_conn; eauto. }
  destruct (mget r (rp_os s)) as [[|x|]|] eqn:Os.
  - left. apply W1, Os.
  - right; right; right. apply A5 in Os. destruct (Ft _ _ _ _ _ Os Hi) as [(m & Hq)|[(Hu & _)|[He|(q & G' & _ & _ & Hw)]]].
    + right. exists m. split. { destruct (F1 _ _ _ Hq) as (a' & req' & x' & Hi' & _ & Ro). destruct (Q2 _ _ _ _ _ _ _ Hi Hi') as (_ & _ & <-). clear - Ro. unfold rep_outgoing in Ro. destruct co as [cm|]; [destruct (cmp_fun cm x')|]; inversion Ro; subst; reflexivity. }
      assert (X : In m (handed_on c L)).
      { pose proof (F4 _ _ G Op) as Y. rewrite Ec, Eg, app_nil_r in Y. rewrite <- Y. apply in_map_iff. exists (r, m). split; [reflexivity|]. unfold queued_on. apply in_flat_map. eexists. split; [exact Hq|]. cbn. destruct (eq_dec c c); [left; reflexivity|congruence]. }
      unfold handed_on in X. apply in_flat_map in X. destruct X as (z & Hz & X). destruct z as [| | | | |c' m' ok| | | | | | | | | | | |]; try contradiction. destruct (eq_dec c' c); [|contradiction]. destruct X as [<-|[]]. subst c'.
      destruct ok; [exact Hz|]. exfalso. apply Ne. eapply run_failed; eauto.
    + left. exact Hu.
    + contradiction.
    + exfalso. rewrite G in G'. inversion G'; subst q. apply Pe in Hw. unfold os_done in Hw. cbn [fst] in Hw. apply A5 in Os. rewrite Os in Hw. discriminate.
  - right. destruct (D2 _ Os) as [X|[X|(x & X)]]; [left; exact X|right; left; exact X|]. exfalso. apply Ne. eapply W3; eauto.
  - exfalso. apply (D1 r); [eapply Q1; eauto|exact Os].
Qed.
End P.
