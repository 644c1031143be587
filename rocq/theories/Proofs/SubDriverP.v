(** Invariants of the subscriber: structure of the state, and the projection of every run to one connection. *)
From Coq Require Import ZArith ZifyBool ZifyNat ZifyN Permutation.
From Verif Require Import Model.Base Model.Map Model.WirePubSub Model.Compression Model.Stats Model.Framed Model.WireAuth
  Model.Handshake Model.Utf8 Model.Backoff Model.JoinMap Model.PubDriver Model.SubDriver Spec.SubSpec Proofs.BaseP Proofs.MapP.
Local Open Scope N_scope.

(** ** Steps of one connection *)
Section C.
Variable (D : decompressors).
Inductive cst (cid : N) : option sconn -> list uout -> option sconn -> Prop :=
| Copen a : cst cid None [UOpen cid a] (Some (sc_new a))
| Cflush x fl : sc_alive x = true -> cst cid (Some x) [] (Some (sc_set_egress x (sc_egress x) fl))
| Cbusy x m rest : sc_alive x = true -> sc_egress x = m :: rest -> cst cid (Some x) [UBusy cid] (Some (sc_set_egress x (rest ++ [m]) (sc_flush x)))
| Cwire x m rest ok : sc_alive x = true -> sc_egress x = m :: rest -> cst cid (Some x) [UWire cid m ok] (Some (sc_set_egress x rest (sc_flush x)))
| Cgot x c cs now m : sc_alive x = true -> sc_cmds x = c :: cs -> cmd_frame now c = Some m ->
    cst cid (Some x) [UGot cid c] (Some (sc_set_cmds (sc_set_egress x (sc_egress x ++ [m]) (sc_flush x)) cs))
| Ccrash x c cs now : sc_alive x = true -> sc_cmds x = c :: cs -> cmd_frame now c = None ->
    cst cid (Some x) [UGot cid c; UCrash cid] (Some (sc_finish x))
| Cend x : sc_alive x = true -> sc_cmds x = [] -> sc_held x = false -> cst cid (Some x) [UEnd cid] (Some (sc_finish x))
| Crecv x now m : sc_alive x = true -> cst cid (Some x) (snd (ss_incoming cid now m x)) (Some (fst (ss_incoming cid now m x)))
| Cerr x : sc_alive x = true -> cst cid (Some x) [URecvErr cid] (Some x)
| Ctry x c : sc_held x = true -> cst cid (Some x) [UTry cid c (snd (sc_try c x))] (Some (fst (sc_try c x)))
| Cclose x : sc_held x = true -> cst cid (Some x) [UClosed cid (sc_in x)] (Some (sc_release x))
| Cundec x m rest : sc_held x = true -> sc_in x = m :: rest -> try_decompress D (tm_ctype m) (tm_payload m) = None ->
    cst cid (Some x) [UUndecodable cid m] (Some (sc_set_in x rest))
| Cdeliver x m rest p r : sc_held x = true -> sc_in x = m :: rest -> try_decompress D (tm_ctype m) (tm_payload m) = Some p ->
    cst cid (Some x) [UDeliver cid m (sc_addr x) p r] (Some (sc_set_in x rest)).

Inductive csts (cid : N) : option sconn -> list uout -> option sconn -> Prop :=
| Cnil y : csts cid y [] y
| Ccons y o y1 o1 y2 : cst cid y o y1 -> csts cid y1 o1 y2 -> csts cid y (o ++ o1) y2.

Lemma csts_one cid y o y' : cst cid y o y' -> csts cid y o y'.
Proof. intros H. rewrite <- (app_nil_r o). eapply Ccons; [exact H|apply Cnil]. Qed.
Lemma csts_app cid y o y1 o1 y2 : csts cid y o y1 -> csts cid y1 o1 y2 -> csts cid y (o ++ o1) y2.
Proof. induction 1; cbn; [auto|]. intros H2. rewrite <- app_assoc. eapply Ccons; eauto. Qed.
Lemma csts_cons cid y x o y1 y2 : cst cid y [x] y1 -> csts cid y1 o y2 -> csts cid y (x :: o) y2.
Proof. intros H H2. change (x :: o) with ([x] ++ o). eapply Ccons; eauto. Qed.

(** ** Structure of the state *)
Record SI (s : sb) : Prop := mkSI {
  si_nd : NoDup (mkeys (sb_pubs s));
  si_act : forall a c, mget a (sb_pubs s) = Some (PActive c) -> exists x, mget c (sb_conns s) = Some x /\ sc_addr x = a /\ sc_held x = true;
  si_held : forall c x, mget c (sb_conns s) = Some x -> sc_held x = true -> mget (sc_addr x) (sb_pubs s) = Some (PActive c);
  si_next : forall c x, mget c (sb_conns s) = Some x -> c < sb_next s;
  si_top : NoDup (sb_topics s);
  si_stat : forall a c, mget a (sb_stats s) = Some c -> exists x, mget c (sb_conns s) = Some x /\ sc_addr x = a }.

Lemma SI_init : SI sb_init.
Proof. constructor; cbn; try discriminate; constructor. Qed.

(** Projection of one step. *)
Definition proj (s : sb) (o : list uout) (s' : sb) : Prop :=
  forall cid, csts cid (mget cid (sb_conns s)) (on cid o) (mget cid (sb_conns s')).

Lemma proj_same s o s' : sb_conns s' = sb_conns s -> (forall cid, on cid o = []) -> proj s o s'.
Proof. intros E H cid. rewrite E, H. apply Cnil. Qed.
Lemma on_app cid a b : on cid (a ++ b) = on cid a ++ on cid b.
Proof. apply filter_app. Qed.
Lemma proj_trans s o s1 o1 s2 : proj s o s1 -> proj s1 o1 s2 -> proj s (o ++ o1) s2.
Proof. intros H1 H2 cid. rewrite on_app. eapply csts_app; eauto. Qed.

(** Changing one connection while keeping its address and holder. *)
Lemma SI_conn s c x x' : SI s -> mget c (sb_conns s) = Some x -> sc_addr x' = sc_addr x -> sc_held x' = sc_held x ->
  SI (sb_set_conns s (mset c x' (sb_conns s))).
Proof.
  intros [nd ac he ne tp st] G Ea Eh. constructor; cbn; auto.
  - intros a k Ha. destruct (ac _ _ Ha) as (y & A & B & C). rewrite mget_set. destruct (eq_dec k c) as [->|].
    + rewrite G in A. injection A as <-. eexists; repeat split; congruence.
    + eauto.
  - intros k y. rewrite mget_set. destruct (eq_dec k c) as [->|]; [|apply he]. intros [= <-]. rewrite Ea, Eh. now apply he.
  - intros k y. rewrite mget_set. destruct (eq_dec k c) as [->|]; [intros _; eauto|apply ne].
  - intros a k Ha. destruct (st _ _ Ha) as (y & A & B). rewrite mget_set. destruct (eq_dec k c) as [->|]; [|eauto].
    rewrite G in A. injection A as <-. eexists; split; [reflexivity|congruence].
Qed.

Lemma proj_conn s c x x' o : mget c (sb_conns s) = Some x -> (forall k, k <> c -> on k o = []) -> csts c (Some x) (on c o) (Some x') ->
  proj s o (sb_set_conns s (mset c x' (sb_conns s))).
Proof.
  intros G H H2 k. cbn. rewrite mget_set. destruct (eq_dec k c) as [->|N]; [now rewrite G|]. rewrite (H _ N). apply Cnil.
Qed.

Lemma on_one c k l : Forall (fun x => about c x = true) l -> on k l = if eq_dec k c then l else [].
Proof.
  intros H. unfold on. induction H as [|x l Hx H IH]; cbn; [destruct (eq_dec k c); reflexivity|]. rewrite IH.
  assert (E : about k x = if eq_dec k c then true else false).
  { unfold about in *. destruct x; try discriminate; repeat destruct (eq_dec _ _); congruence. }
  rewrite E. destruct (eq_dec k c); reflexivity.
Qed.
Lemma proj_conn1 s c x x' o : mget c (sb_conns s) = Some x -> Forall (fun z => about c z = true) o -> csts c (Some x) o (Some x') ->
  proj s o (sb_set_conns s (mset c x' (sb_conns s))).
Proof.
  intros G H H2. eapply proj_conn; [exact G| |].
  - intros k N. rewrite (on_one c k o H). destruct (eq_dec k c); congruence.
  - rewrite (on_one c c o H). destruct (eq_dec c c); congruence.
Qed.

Lemma about_same c : forall x, match x with
  | UOpen k _ | UTry k _ _ | UGot k _ | UBusy k | UWire k _ _ | URecv k _ _ _ | URecvErr k | UUndecodable k _ | UDeliver k _ _ _ _
  | UClosed k _ | UEnd k | UCrash k => k = c | _ => False end -> about c x = true.
Proof. intros x H. destruct x; try contradiction; cbn; subst; destruct (eq_dec c c); congruence. Qed.

(** ** Sessions *)
Lemma eg_loop_csts cid : forall eg ans x e o p f, eg_loop cid eg ans = (e, o, p, f) -> sc_egress x = eg -> sc_alive x = true ->
  Forall (fun z => about cid z = true) o /\ csts cid (Some x) o (Some (sc_set_egress x e (sc_flush x))).
Proof.
  induction eg as [|m rest IH]; intros ans x e o p f; cbn [eg_loop].
  - intros [= <- <- <- <-] E A. split; [constructor|]. replace (sc_set_egress x [] (sc_flush x)) with x; [apply Cnil|]. destruct x; cbn in *; subst; reflexivity.
  - intros H E A.
    assert (B : (e, o) = (rest ++ [m], [UBusy cid]) -> Forall (fun z => about cid z = true) o /\ csts cid (Some x) o (Some (sc_set_egress x e (sc_flush x)))).
    { intros [= -> ->]. split; [constructor; [now apply about_same|constructor]|]. apply csts_one. now apply Cbusy. }
    assert (K : forall ok ans' e' o' p' f', eg_loop cid rest ans' = (e', o', p', f') -> e = e' -> o = UWire cid m ok :: o' ->
      Forall (fun z => about cid z = true) o /\ csts cid (Some x) o (Some (sc_set_egress x e (sc_flush x)))).
    { intros ok ans' e' o' p' f' R -> ->. destruct (IH ans' (sc_set_egress x rest (sc_flush x)) _ _ _ _ R eq_refl A) as [F1 F2].
      split; [constructor; [now apply about_same|exact F1]|]. eapply csts_cons; [eapply Cwire; eauto|]. exact F2. }
    destruct ans as [|[| |] ans'].
    + apply B. congruence.
    + destruct (eg_loop cid rest ans') as [[[e' o'] p'] f'] eqn:R. injection H as <- <- <- <-. eapply K; eauto.
    + destruct (eg_loop cid rest ans') as [[[e' o'] p'] f'] eqn:R. injection H as <- <- <- <-. eapply K; eauto.
    + apply B. congruence.
Qed.

Lemma ss_iter_csts cid e x x' o r : ss_iter cid e x = (x', o, r) -> sc_alive x = true ->
  Forall (fun z => about cid z = true) o /\ csts cid (Some x) o (Some x') /\ sc_addr x' = sc_addr x /\ sc_held x' = sc_held x.
Proof.
  unfold ss_iter. set (fl := if sc_flush x && y_flush e then false else sc_flush x). cbv zeta. intros H A.
  assert (F0 : cst cid (Some x) [] (Some (sc_set_egress x (sc_egress x) fl))) by now apply Cflush.
  assert (EG : forall ans r0, (let '(eg, o, progress, f) := eg_loop cid (sc_egress (sc_set_egress x (sc_egress x) fl)) ans in
    let x := sc_set_egress (sc_set_egress x (sc_egress x) fl) eg (f || fl) in
    if progress then (x, o, SCont) else match sc_cmds x with
    | c :: cs => match cmd_frame (y_now e) c with
      | Some m => (sc_set_cmds (sc_set_egress x (eg ++ [m]) (f || fl)) cs, o ++ [UGot cid c], SCont)
      | None => (sc_finish x, o ++ [UGot cid c; UCrash cid], SCrash) end
    | [] => if sc_held x then (x, o, SPend) else (sc_finish x, o ++ [UEnd cid], SDone) end) = r0 -> r0 = (x', o, r) ->
    Forall (fun z => about cid z = true) o /\ csts cid (Some x) o (Some x') /\ sc_addr x' = sc_addr x /\ sc_held x' = sc_held x).
  { intros ans r0. destruct (eg_loop cid (sc_egress (sc_set_egress x (sc_egress x) fl)) ans) as [[[eg o1] p] f] eqn:R.
    destruct (eg_loop_csts cid _ _ (sc_set_egress x (sc_egress x) fl) _ _ _ _ R eq_refl A) as [Fo Co].
    set (x1 := sc_set_egress (sc_set_egress x (sc_egress x) fl) eg (f || fl)).
    assert (C1 : csts cid (Some x) o1 (Some x1)).
    { change o1 with ([] ++ o1). eapply Ccons; [exact F0|]. rewrite <- (app_nil_r o1). eapply csts_app; [exact Co|]. apply csts_one.
      apply (Cflush cid (sc_set_egress (sc_set_egress x (sc_egress x) fl) eg (sc_flush (sc_set_egress x (sc_egress x) fl))) (f || fl)). exact A. }
    cbv zeta. fold x1. intros <-. destruct p.
    { intros [= <- <- <-]. auto. }
    destruct (sc_cmds x1) as [|c cs] eqn:Ec.
    - destruct (sc_held x1) eqn:Eh; intros [= <- <- <-]; [auto|]. split; [apply Forall_app; split; [exact Fo|repeat constructor; now apply about_same]|].
      split; [|split; reflexivity]. eapply csts_app; [exact C1|]. apply csts_one. now apply Cend.
    - destruct (cmd_frame (y_now e) c) as [m|] eqn:Ef; intros [= <- <- <-].
      + split; [apply Forall_app; split; [exact Fo|repeat constructor; now apply about_same]|]. split; [|split; reflexivity].
        eapply csts_app; [exact C1|]. apply csts_one. exact (Cgot cid x1 c cs (y_now e) m A Ec Ef).
      + split; [apply Forall_app; split; [exact Fo|repeat constructor; now apply about_same]|]. split; [|split; reflexivity].
        eapply csts_app; [exact C1|]. apply csts_one. exact (Ccrash cid x1 c cs (y_now e) A Ec Ef). }
  destruct (y_next e) as [m| | |] eqn:En.
  - pose proof (Crecv cid (sc_set_egress x (sc_egress x) fl) (y_now e) m A) as K.
    assert (P : exists r, snd (ss_incoming cid (y_now e) m (sc_set_egress x (sc_egress x) fl)) = [URecv cid m (y_now e) r]).
    { unfold ss_incoming. destruct (negb _); [|destruct (_ <? _)]; eexists; reflexivity. }
    assert (Q : sc_addr (fst (ss_incoming cid (y_now e) m (sc_set_egress x (sc_egress x) fl))) = sc_addr x /\ sc_held (fst (ss_incoming cid (y_now e) m (sc_set_egress x (sc_egress x) fl))) = sc_held x).
    { unfold ss_incoming. destruct (negb _); [|destruct (_ <? _)]; auto. }
    destruct (ss_incoming cid (y_now e) m (sc_set_egress x (sc_egress x) fl)) as [x1 o1]. cbn [fst snd] in *. injection H as <- <- <-. destruct P as [r0 ->].
    split; [repeat constructor; now apply about_same|]. split; [|exact Q]. change [URecv cid m (y_now e) r0] with ([] ++ [URecv cid m (y_now e) r0]). eapply Ccons; [exact F0|]. now apply csts_one.
  - injection H as <- <- <-. split; [repeat constructor; now apply about_same|]. split; [|auto]. change [URecvErr cid] with ([] ++ [URecvErr cid]). eapply Ccons; [exact F0|]. apply csts_one. now apply Cerr.
  - exact (EG _ _ eq_refl H).
  - exact (EG _ _ eq_refl H).
Qed.

Lemma session_step cid e s s' o r : SI s -> sb_session cid e s = (s', o, r) -> SI s' /\ proj s o s'.
Proof.
  intros I. unfold sb_session. destruct (mget cid (sb_conns s)) as [x|] eqn:G; [|intros [= <- <- <-]; split; [auto|now apply proj_same]].
  destruct (sc_alive x) eqn:A; [|intros [= <- <- <-]; split; [auto|now apply proj_same]].
  destruct (ss_iter cid e x) as [[x' o'] r'] eqn:E. intros [= <- <- <-]. destruct (ss_iter_csts _ _ _ _ _ _ E A) as (F & C & Ea & Eh).
  split; [eapply SI_conn; eauto|]. eapply proj_conn1; eauto.
Qed.
End C.

Section P.
Variables (token : option bytes) (ingress initial : N) (D : decompressors).
Notation proj := (proj D).
Notation csts := (csts D).

(** ** Driver *)
Lemma release_step a s s' o st : SI s -> mget a (sb_pubs s) = st -> sb_release st s = (s', o) ->
  proj s o s' /\ sb_pubs s' = sb_pubs s /\ sb_stats s' = sb_stats s /\ sb_topics s' = sb_topics s /\ sb_next s' = sb_next s /\ sb_tasks s' = sb_tasks s /\
  (forall c x, mget c (sb_conns s') = Some x -> exists y, mget c (sb_conns s) = Some y /\ sc_addr x = sc_addr y /\ (sc_held x = true -> sc_held y = true /\ (forall a', mget a' (sb_pubs s) = Some (PActive c) -> a' <> a))) /\
  (forall a' c, a' <> a -> mget a' (sb_pubs s) = Some (PActive c) -> mget c (sb_conns s') = mget c (sb_conns s)) /\
  (forall c y, mget c (sb_conns s) = Some y -> exists x, mget c (sb_conns s') = Some x /\ sc_addr x = sc_addr y).
Proof using D.
  intros I G. unfold sb_release. destruct st as [[cid|b]|].
  2,3: intros [= <- <-]; split; [now apply proj_same|]; repeat (split; [reflexivity|]); split; [|split; eauto];
       intros c x Gc; exists x; split; [exact Gc|]; split; [reflexivity|]; intros Hx; split; [exact Hx|]; intros a' Ga ->; congruence.
  destruct (si_act _ I _ _ G) as (x & A & B & C). rewrite A. intros [= <- <-].
  split. { eapply proj_conn1; [exact A|repeat constructor; now apply about_same|]. apply csts_one. now apply Cclose. }
  repeat (split; [reflexivity|]). cbn. split; [|split].
  - intros c y. rewrite mget_set. destruct (eq_dec c cid) as [->|N].
    + intros [= <-]. exists x. split; [exact A|]. split; [reflexivity|]. cbn. discriminate.
    + intros Gc. exists y. split; [exact Gc|]. split; [reflexivity|]. intros Hx. split; [exact Hx|]. intros a' Ga ->. congruence.
  - intros a' c N Ga. rewrite mget_set_ne; [reflexivity|]. intros ->. destruct (si_act _ I _ _ Ga) as (x' & A' & B' & _). congruence.
  - intros c y. rewrite mget_set. destruct (eq_dec c cid) as [->|]; [|eauto]. rewrite A. intros [= <-]. eexists; split; reflexivity.
Qed.

Lemma SI_unpub a s s1 o (p : option pstate) (tp : list bytes) : SI s -> sb_release (mget a (sb_pubs s)) s = (s1, o) ->
  (forall c, p <> Some (PActive c)) ->
  SI (sb_set_pubs s1 (match p with Some st => mset a st (sb_pubs s1) | None => mdel a (sb_pubs s1) end)).
Proof using D.
  intros I R Np. destruct (release_step a s s1 o _ I eq_refl R) as (_ & Ep & Es & Et & En & _ & H1 & H2 & H3).
  assert (Gp : forall a', mget a' (match p with Some st => mset a st (sb_pubs s1) | None => mdel a (sb_pubs s1) end) = if eq_dec a' a then p else mget a' (sb_pubs s)).
  { intros a'. rewrite Ep. destruct p; [rewrite mget_set|rewrite mget_del]; reflexivity. }
  destruct I as [nd ac he ne tpp st]. constructor; cbn.
  - rewrite Ep. destruct p; [now apply nodup_set|now apply nodup_del].
  - intros a' c. rewrite Gp. destruct (eq_dec a' a) as [->|N]; [intros E; now apply Np in E|]. intros Ga. rewrite (H2 _ _ N Ga). auto.
  - intros c x Gc Hx. destruct (H1 _ _ Gc) as (y & Gy & Ea & Hy). destruct (Hy Hx) as [Hy1 Hy2]. specialize (he _ _ Gy Hy1). rewrite Ea, Gp.
    destruct (eq_dec (sc_addr y) a) as [E|]; [|exact he]. exfalso. now apply (Hy2 _ he).
  - intros c x Gc. destruct (H1 _ _ Gc) as (y & Gy & _). rewrite En. eauto.
  - rewrite Et. exact tpp.
  - intros a' c. rewrite Es. intros Ga. destruct (st _ _ Ga) as (y & Gy & Ea). destruct (H3 _ _ Gy) as (x & Gx & Ex). exists x. split; [exact Gx|congruence].
Qed.

Lemma reset_step a s s' o : SI s -> sb_reset initial a s = (s', o) -> SI s' /\ proj s o s' /\
  (forall a', mget a' (sb_pubs s') = if eq_dec a' a then Some (PInactive (bo_new initial MAX_RETRIES)) else mget a' (sb_pubs s)) /\
  (forall a' c, a' <> a -> mget a' (sb_pubs s) = Some (PActive c) -> mget c (sb_conns s') = mget c (sb_conns s)).
Proof using D.
  intros I. unfold sb_reset. destruct (sb_release (mget a (sb_pubs s)) s) as [s1 o1] eqn:R. intros [= <- <-].
  destruct (release_step a s s1 o1 _ I eq_refl R) as (P & Ep & _ & _ & _ & _ & _ & H2 & _).
  split; [apply (SI_unpub a s s1 o1 (Some (PInactive (bo_new initial MAX_RETRIES))) [] I R); discriminate|]. split.
  - eapply proj_trans; [exact P|]. apply proj_same; reflexivity.
  - cbn. split; [intros a'; rewrite mget_set, Ep; reflexivity|exact H2].
Qed.

Lemma try_step c cid x : sc_held x = true -> csts cid (Some x) [UTry cid c (snd (sc_try c x))] (Some (fst (sc_try c x))).
Proof using D. intros H. apply csts_one. now apply Ctry. Qed.
Lemma try_addr c x : sc_addr (fst (sc_try c x)) = sc_addr x /\ sc_held (fst (sc_try c x)) = sc_held x.
Proof using D. unfold sc_try. destruct (negb _); [|destruct (_ <? _)]; auto. Qed.

Lemma tell_step c : forall l s s' o, SI s -> NoDup (mkeys l) ->
  (forall a st, In (a, st) l -> mget a (sb_pubs s) = Some st) -> sb_tell initial c l s = (s', o) -> SI s' /\ proj s o s'.
Proof using D.
  induction l as [|[a st] l IH]; intros s s' o I Nd Hl; cbn [sb_tell].
  { intros [= <- <-]. split; [auto|now apply proj_same]. }
  inversion Nd as [|? ? Na Nd']; subst. fold (mkeys l) in *. pose proof (Hl a st (or_introl eq_refl)) as Ga.
  destruct st as [cid|b]; [|intros H; eapply IH; eauto; intros; apply Hl; now right].
  destruct (si_act _ I _ _ Ga) as (x & Gx & Ax & Hx). rewrite Gx. destruct (sc_try c x) as [x' r] eqn:T.
  pose proof (try_step c cid x Hx) as K. pose proof (try_addr c x) as [Ka Kh]. rewrite T in K, Ka, Kh. cbn [fst snd] in K, Ka, Kh.
  set (s1 := sb_set_conns s (mset cid x' (sb_conns s))).
  assert (I1 : SI s1) by (eapply SI_conn; eauto).
  assert (P1 : proj s [UTry cid c r] s1) by (eapply proj_conn1; eauto; repeat constructor; now apply about_same).
  destruct (match r with TClosed => sb_reset initial a s1 | _ => (s1, []) end) as [s2 o2] eqn:E2.
  assert (X2 : SI s2 /\ proj s1 o2 s2 /\ (forall a', a' <> a -> mget a' (sb_pubs s2) = mget a' (sb_pubs s))).
  { destruct r.
    1,2: injection E2 as <- <-; split; [exact I1|]; split; [now apply proj_same|reflexivity].
    destruct (reset_step a s1 s2 o2 I1 E2) as (A & B & C & _). split; [exact A|]. split; [exact B|]. intros a' N. rewrite C. destruct (eq_dec a' a); [contradiction|reflexivity]. }
  destruct X2 as (I2 & P2 & Q2). destruct (sb_tell initial c l s2) as [s3 o3] eqn:E3. intros [= <- <-].
  destruct (IH s2 s3 o3 I2 Nd') as [I3 P3]; [|exact E3|].
  { intros a' st' Hi. rewrite Q2; [apply Hl; now right|]. intros ->. apply Na. apply (in_map fst) in Hi. exact Hi. }
  split; [exact I3|]. change (UTry cid c r :: o2 ++ o3) with ([UTry cid c r] ++ o2 ++ o3).
  eapply proj_trans; [exact P1|]. eapply proj_trans; [exact P2|exact P3].
Qed.

Lemma SI_cmdq s q : SI s -> SI (sb_set_cmdq s q). Proof using. intros []; constructor; auto. Qed.
Lemma SI_out s q : SI s -> SI (sb_set_out s q). Proof using. intros []; constructor; auto. Qed.
Lemma SI_tasks s q : SI s -> SI (sb_set_tasks s q). Proof using. intros []; constructor; auto. Qed.
Lemma SI_topics s q : SI s -> NoDup q -> SI (sb_set_topics s q). Proof using. intros []; constructor; auto. Qed.

Lemma connect_step a s s' o : SI s -> sb_connect a s = (s', o) -> SI s' /\ proj s o s'.
Proof using D.
  intros I. unfold sb_connect. destruct (jm_spawn a (sb_tasks s)) as [j b]. intros [= <- <-]. split; [now apply SI_tasks|].
  apply proj_same; [reflexivity|]. intros cid. destruct b; reflexivity.
Qed.

Lemma command_step c s s' o : SI s -> sb_command initial c s = (s', o) -> SI s' /\ proj s o s'.
Proof using D.
  intros I. destruct c as [t|t|a|a|]; cbn [sb_command]; cbv zeta.
  - destruct (smem t (sb_topics s)); [intros [= <- <-]; split; [auto|now apply proj_same]|]. intros H.
    assert (I1 : SI (sb_set_topics s (sins t (sb_topics s)))) by (apply SI_topics; [exact I|apply nodup_sins, (si_top _ I)]).
    eapply tell_step in H; [|exact I1|apply (si_nd _ I)|intros a st Hi; apply in_mget; [apply (si_nd _ I)|exact Hi]].
    destruct H as [H1 H2]. split; [exact H1|]. change o with ([] ++ o). eapply proj_trans; [|exact H2]. now apply proj_same.
  - destruct (smem t (sb_topics s)); [|intros [= <- <-]; split; [auto|now apply proj_same]]. intros H.
    assert (I1 : SI (sb_set_topics s (sdel t (sb_topics s)))) by (apply SI_topics; [exact I|apply nodup_sdel, (si_top _ I)]).
    eapply tell_step in H; [|exact I1|apply (si_nd _ I)|intros a st Hi; apply in_mget; [apply (si_nd _ I)|exact Hi]].
    destruct H as [H1 H2]. split; [exact H1|]. change o with ([] ++ o). eapply proj_trans; [|exact H2]. now apply proj_same.
  - destruct (mem a (sb_pubs s)); [intros [= <- <-]; split; [auto|now apply proj_same]|].
    destruct (sb_connect a s) as [s1 o1] eqn:E1. destruct (sb_reset initial a s1) as [s2 o2] eqn:E2. intros [= <- <-].
    destruct (connect_step _ _ _ _ I E1) as [I1 P1]. destruct (reset_step _ _ _ _ I1 E2) as (I2 & P2 & _). split; [exact I2|]. eapply proj_trans; eauto.
  - destruct (mget a (sb_pubs s)) as [st|] eqn:G; [|intros [= <- <-]; split; [auto|now apply proj_same]].
    destruct (sb_release (Some st) s) as [s1 o1] eqn:R. intros [= <- <-]. rewrite <- G in R.
    pose proof (SI_unpub a s s1 o1 None [] I R ltac:(discriminate)) as I1. destruct (release_step a s s1 o1 _ I eq_refl R) as (P & _).
    split. { destruct I1 as [nd ac he ne tp stt]. constructor; auto. cbn in *. intros a' c. rewrite mget_del. destruct (eq_dec a' a); [discriminate|apply stt]. }
    rewrite <- (app_nil_r o1). eapply proj_trans; [exact P|]. now apply proj_same.
  - intros [= <- <-]. split; [auto|now apply proj_same].
Qed.

Lemma next_command_step s s' o b : SI s -> sb_next_command initial s = (s', o, b) -> SI s' /\ proj s o s'.
Proof using D.
  intros I. unfold sb_next_command. destruct (sb_cmdq s) as [|c q]; [intros [= <- <- <-]; split; [auto|now apply proj_same]|].
  destruct (sb_command initial c (sb_set_cmdq s q)) as [s1 o1] eqn:E. intros [= <- <- <-].
  destruct (command_step _ _ _ _ (SI_cmdq s q I) E) as [I1 P1]. split; [exact I1|].
  change (UCmd c :: o1) with ([UCmd c] ++ o1). eapply proj_trans; [|exact P1]. now apply proj_same.
Qed.

Lemma greet_csts cid : forall ts x x' o, sb_greet cid ts x = (x', o) -> sc_held x = true ->
  Forall (fun z => about cid z = true) o /\ csts cid (Some x) o (Some x') /\ sc_addr x' = sc_addr x /\ sc_held x' = true.
Proof using D.
  induction ts as [|t ts IH]; intros x x' o; cbn [sb_greet]; [intros [= <- <-] H; repeat split; [constructor|apply Cnil|exact H]|].
  destruct (sc_try (SSub t) x) as [x1 r] eqn:T. destruct (sb_greet cid ts x1) as [x2 o2] eqn:G. intros [= <- <-] H.
  pose proof (try_step (SSub t) cid x H) as K. pose proof (try_addr (SSub t) x) as [Ka Kh]. rewrite T in K, Ka, Kh. cbn [fst snd] in K, Ka, Kh.
  destruct (IH _ _ _ G) as (A & B & C & E); [congruence|]. split; [constructor; [now apply about_same|exact A]|]. split; [|split; congruence].
  change (UTry cid (SSub t) r :: o2) with ([UTry cid (SSub t) r] ++ o2). eapply csts_app; eauto.
Qed.

Lemma connected_step a order s s' o : SI s -> sb_connected a order s = (s', o) -> SI s' /\ proj s o s'.
Proof using D.
  intros I. unfold sb_connected.
  assert (K : forall s' o, (forall c, mget a (sb_pubs s) <> Some (PActive c)) ->
    (let cid := sb_next s in let (x, o) := sb_greet cid (arrange order (sb_topics s)) (sc_new a) in
     (mkSb (sb_cmdq s) (sb_out s) (sb_dropped s) (sb_tasks s) (sb_topics s) (mset a (PActive cid) (sb_pubs s)) (mset a cid (sb_stats s)) (mset cid x (sb_conns s)) (cid + 1), UOpen cid a :: o)) = (s', o)
    -> SI s' /\ proj s o s').
  { clear s' o. intros s' o Na. cbv zeta. destruct (sb_greet (sb_next s) (arrange order (sb_topics s)) (sc_new a)) as [x o1] eqn:G. intros [= <- <-].
    destruct (greet_csts _ _ _ _ _ G eq_refl) as (F & C & Ea & Eh). cbn in Ea.
    assert (Fr : mget (sb_next s) (sb_conns s) = None).
    { destruct (mget (sb_next s) (sb_conns s)) eqn:Q; [|reflexivity]. apply (si_next _ I), N.lt_irrefl in Q. destruct Q. }
    split.
    - destruct I as [nd ac he ne tp st]. constructor; cbn; auto.
      + now apply nodup_set.
      + intros a' c. rewrite mget_set. destruct (eq_dec a' a) as [->|N].
        * intros [= <-]. rewrite mget_set_eq. eauto.
        * intros Ga. destruct (ac _ _ Ga) as (y & A & B & H). rewrite mget_set_ne; [eauto|]. congruence.
      + intros c y. rewrite mget_set. destruct (eq_dec c (sb_next s)) as [->|N].
        * intros [= <-] _. rewrite Ea. apply mget_set_eq.
        * intros Gy Hy. specialize (he _ _ Gy Hy). rewrite mget_set_ne; [exact he|]. intros E. apply (Na c). congruence.
      + intros c y. rewrite mget_set. destruct (eq_dec c (sb_next s)) as [->|N]; [intros _; apply N.lt_add_pos_r, N.lt_0_1|]. intros Gy. apply ne in Gy. now apply N.lt_lt_add_r.
      + intros a' c. rewrite mget_set. destruct (eq_dec a' a) as [->|N].
        * intros [= <-]. rewrite mget_set_eq. eauto.
        * intros Ga. destruct (st _ _ Ga) as (y & A & B). rewrite mget_set_ne; [eauto|]. congruence.
    - intros cid. cbn [sb_conns]. rewrite mget_set. change (UOpen (sb_next s) a :: o1) with ([UOpen (sb_next s) a] ++ o1).
      rewrite (on_one (sb_next s)) by (apply Forall_app; split; [repeat constructor; now apply about_same|exact F]).
      destruct (eq_dec cid (sb_next s)) as [->|N]; [|apply Cnil]. rewrite Fr. eapply Ccons; [apply Copen|exact C]. }
  destruct (mget a (sb_pubs s)) as [[c|b]|] eqn:Ga.
  - intros [= <- <-]. split; [auto|now apply proj_same].
  - apply K. congruence.
  - apply K. congruence.
Qed.

Lemma join_step k r order s s' o b : SI s -> sb_join token k r order s = (s', o, b) -> SI s' /\ proj s o s'.
Proof using D.
  intros I. unfold sb_join. destruct (nth_error (jm_tasks (sb_tasks s)) k) as [a|]; [|intros [= <- <- <-]; split; [auto|now apply proj_same]].
  assert (F : forall j z, (forall cid, about cid z = false) -> SI (sb_set_tasks s j) /\ proj s [z] (sb_set_tasks s j)).
  { intros j z H. split; [now apply SI_tasks|]. apply proj_same; [reflexivity|]. intros cid. cbn. now rewrite H. }
  destruct r as [| |ok input].
  - intros [= <- <- <-]. apply F; reflexivity.
  - intros [= <- <- <-]. apply F; reflexivity.
  - destruct (auth_client token ok input) as [[[| | |] w] rest].
    + match goal with |- (let (_, _) := sb_connected _ _ ?q in _) = _ -> _ => set (q0 := q) end.
      destruct (sb_connected a order q0) as [s2 o2] eqn:E. intros [= <- <- <-].
      destruct (connected_step _ _ _ _ _ (SI_tasks s _ I) E) as [I2 P2]. split; [exact I2|].
      change o2 with ([] ++ o2). eapply proj_trans; [|exact P2]. now apply proj_same.
    + intros [= <- <- <-]. apply F; reflexivity.
    + intros [= <- <- <-]. apply F; reflexivity.
    + intros [= <- <- <-]. split; [auto|now apply proj_same].
Qed.

Lemma SI_setpub a b s : SI s -> (forall c, mget a (sb_pubs s) <> Some (PActive c)) -> SI (sb_set_pubs s (mset a (PInactive b) (sb_pubs s))).
Proof using D.
  intros [nd ac he ne tp st] Na. constructor; cbn; auto.
  - now apply nodup_set.
  - intros a' c. rewrite mget_set. destruct (eq_dec a' a); [discriminate|auto].
  - intros c x G H. specialize (he _ _ G H). rewrite mget_set. destruct (eq_dec (sc_addr x) a) as [E|]; [|exact he]. exfalso. apply (Na c). congruence.
Qed.
Lemma SI_delpub a s : SI s -> (forall c, mget a (sb_pubs s) <> Some (PActive c)) -> SI (sb_set_pubs s (mdel a (sb_pubs s))).
Proof using D.
  intros [nd ac he ne tp st] Na. constructor; cbn; auto.
  - now apply nodup_del.
  - intros a' c. rewrite mget_del. destruct (eq_dec a' a); [discriminate|auto].
  - intros c x G H. specialize (he _ _ G H). rewrite mget_del. destruct (eq_dec (sc_addr x) a) as [E|]; [|exact he]. exfalso. apply (Na c). congruence.
Qed.

Lemma pass_step cid a m p s s' o : SI s -> sb_pass ingress cid a m p s = (s', o) -> SI s' /\ sb_conns s' = sb_conns s /\ exists r, o = [UDeliver cid m a p r].
Proof using D.
  intros I. unfold sb_pass. destruct (sb_dropped s); [|destruct (_ <? _)]; intros [= <- <-]; (split; [|split; [reflexivity|eauto]]); auto. now apply SI_out.
Qed.

Lemma entry_step a now s s' o b : SI s -> sb_entry ingress initial D a now s = (s', o, b) -> SI s' /\ proj s o s'.
Proof using D.
  intros I. unfold sb_entry. destruct (mget a (sb_pubs s)) as [[cid|bo]|] eqn:Ga.
  - destruct (si_act _ I _ _ Ga) as (x & Gx & Ax & Hx). rewrite Gx. destruct (sc_in x) as [|m rest] eqn:Ei.
    + destruct (sc_alive x); [intros [= <- <- <-]; split; [auto|now apply proj_same]|].
      destruct (sb_reset initial a s) as [s1 o1] eqn:R. intros [= <- <- <-]. destruct (reset_step _ _ _ _ I R) as (A & B & _). auto.
    + cbv zeta. set (s1 := sb_set_conns s (mset cid (sc_set_in x rest) (sb_conns s))).
      assert (I1 : SI s1) by (eapply SI_conn; eauto).
      destruct (try_decompress D (tm_ctype m) (tm_payload m)) as [p|] eqn:T.
      * destruct (sb_pass ingress cid a m p s1) as [s2 o2] eqn:P. intros [= <- <- <-]. destruct (pass_step _ _ _ _ _ _ _ I1 P) as (I2 & Ec & r & ->).
        split; [exact I2|]. intros k. rewrite Ec. eapply proj_conn1; [exact Gx|repeat constructor; now apply about_same|]. apply csts_one. rewrite <- Ax. now apply Cdeliver.
      * intros [= <- <- <-]. split; [exact I1|]. eapply proj_conn1; [exact Gx|repeat constructor; now apply about_same|]. apply csts_one. now apply Cundec.
  - assert (Na : forall c, mget a (sb_pubs s) <> Some (PActive c)) by congruence.
    destruct (bo_poll now bo) as [b' [d| | |]].
    + cbv zeta. set (s1 := sb_set_pubs s (mset a (PInactive b') (sb_pubs s))). assert (I1 : SI s1) by now apply SI_setpub.
      destruct (jm_contains a (sb_tasks s)); [intros [= <- <- <-]; split; [auto|now apply proj_same]|].
      destruct (sb_connect a s1) as [s2 o2] eqn:E. intros [= <- <- <-]. destruct (connect_step _ _ _ _ I1 E) as [I2 P2]. split; [exact I2|].
      change o2 with ([] ++ o2). eapply proj_trans; [|exact P2]. now apply proj_same.
    + intros [= <- <- <-]. split; [now apply SI_delpub|now apply proj_same].
    + intros [= <- <- <-]. split; [now apply SI_setpub|now apply proj_same].
    + intros [= <- <- <-]. split; [auto|now apply proj_same].
  - intros [= <- <- <-]. split; [auto|now apply proj_same].
Qed.

Notation act := (sb_act token ingress initial D).
Notation run := (sb_run token ingress initial D).

Lemma act_step s ev s' o : SI s -> act s ev = (s', o) -> SI s' /\ proj s o s'.
Proof using D.
  intros I. destruct ev as [cid e|a now| |k r order|f| |]; cbn [sb_act].
  - destruct (sb_session cid e s) as [[s1 o1] r] eqn:E. intros [= <- <-]. eapply session_step; eauto.
  - destruct (sb_entry ingress initial D a now s) as [[s1 o1] r] eqn:E. intros [= <- <-]. eapply entry_step; eauto.
  - destruct (sb_next_command initial s) as [[s1 o1] r] eqn:E. intros [= <- <-]. eapply next_command_step; eauto.
  - destruct (sb_join token k r order s) as [[s1 o1] b] eqn:E. intros [= <- <-]. eapply join_step; eauto.
  - unfold sb_call. destruct (sb_dropped s); [intros [= <- <-]; split; [auto|now apply proj_same]|].
    destruct (api_command f); [|intros [= <- <-]; split; [auto|now apply proj_same]].
    destruct (_ <? _); intros [= <- <-]; (split; [try apply SI_cmdq; auto|now apply proj_same]).
  - unfold sb_take. destruct (sb_out s) as [|[[[c a] t] p] q]; intros [= <- <-]; (split; [try apply SI_out; auto|now apply proj_same]).
  - unfold sb_drop. destruct (sb_dropped s); intros [= <- <-]; (split; [auto|now apply proj_same]). destruct I; constructor; auto.
Qed.

Lemma run_app evs1 : forall evs2 s, run s (evs1 ++ evs2) = let (s1, o1) := run s evs1 in let (s2, o2) := run s1 evs2 in (s2, o1 ++ o2).
Proof using D.
  induction evs1 as [|ev evs1 IH]; intros evs2 s; cbn [app sb_run]; [destruct (run s evs2); reflexivity|].
  destruct (act s ev) as [s1 o1]. rewrite IH. destruct (run s1 evs1) as [s2 o2]. destruct (run s2 evs2) as [s3 o3]. now rewrite app_assoc.
Qed.
Lemma run_inv_gen (I : list uout -> sb -> Prop) :
  (forall L s ev o s', SI s -> I L s -> act s ev = (s', o) -> I (L ++ o) s') ->
  forall evs L s s' o, SI s -> I L s -> run s evs = (s', o) -> I (L ++ o) s' /\ SI s'.
Proof using D.
  intros St. induction evs as [|ev evs IH]; intros L s s' o HS HI; cbn [sb_run].
  - intros [= <- <-]. rewrite app_nil_r. auto.
  - destruct (act s ev) as [s1 o1] eqn:E. destruct (run s1 evs) as [s2 o2] eqn:R. intros [= <- <-].
    rewrite app_assoc. destruct (act_step _ _ _ _ HS E). eapply IH; [| |exact R]; eauto.
Qed.
Lemma run_inv (I : list uout -> sb -> Prop) :
  I [] sb_init -> (forall L s ev o s', SI s -> I L s -> act s ev = (s', o) -> I (L ++ o) s') ->
  forall evs s L, run sb_init evs = (s, L) -> I L s.
Proof using D. intros H0 St evs s L R. exact (proj1 (run_inv_gen I St evs [] sb_init s L SI_init H0 R)). Qed.
Lemma run_SI evs s L : run sb_init evs = (s, L) -> SI s.
Proof using D. intros R. exact (proj2 (run_inv_gen (fun _ _ => True) ltac:(auto) evs [] sb_init s L SI_init Logic.I R)). Qed.

(** Invariants of one connection. *)
Lemma conn_inv cid (I : list uout -> option sconn -> Prop) :
  I [] None -> (forall L y o y', I L y -> cst D cid y o y' -> I (L ++ o) y') ->
  forall evs s L, run sb_init evs = (s, L) -> I (on cid L) (mget cid (sb_conns s)).
Proof using D.
  intros H0 St. apply (run_inv (fun L s => I (on cid L) (mget cid (sb_conns s)))); [exact H0|].
  intros L s ev o s' HS HI E. destruct (act_step _ _ _ _ HS E) as [_ P]. specialize (P cid). rewrite on_app.
  assert (K : forall y o y', csts cid y o y' -> forall L, I L y -> I (L ++ o) y').
  { induction 1 as [y|y o0 y1 o1 y2 C _ IH]; intros L0 HL; [now rewrite app_nil_r|]. rewrite app_assoc. apply IH. eapply St; eauto. }
  eapply K; eauto.
Qed.
End P.
