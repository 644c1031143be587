(** Subscriber: new connections, connections that stay, polling. *)
From Coq Require Import ZArith ZifyBool ZifyNat ZifyN Permutation.
From Verif Require Import Model.Base Model.Map Model.WirePubSub Model.Compression Model.Stats Model.Framed Model.WireAuth
  Model.Handshake Model.Utf8 Model.Backoff Model.JoinMap Model.PubDriver Model.SubDriver Spec.ReqSpec Spec.SubSpec Proofs.BaseP Proofs.MapP Proofs.SubDriverP Proofs.SubDriverP2 Proofs.SubDriverP3 Proofs.SubDriverP4 Proofs.SubDriverP5.
Local Open Scope N_scope.

(** ** The greeting *)
Lemma greet_full cid : forall ts x x' o, sb_greet cid ts x = (x', o) -> sc_alive x = true -> CMD_CAP <= blen (sc_cmds x) -> o = map (fun t => UTry cid (SSub t) TFull) ts /\ x' = x.
Proof.
  induction ts as [|t ts IH]; intros x x' o; cbn [sb_greet map]; [intros [= <- <-]; auto|].
  unfold sc_try at 1. intros H A F. rewrite A in H. cbn [negb] in H. destruct (N.ltb_spec (blen (sc_cmds x)) CMD_CAP); [lia|].
  destruct (sb_greet cid ts x) as [x2 o2] eqn:G. injection H as <- <-. destruct (IH _ _ _ G A F) as [-> ->]. auto.
Qed.
Lemma greet_sent cid : forall ts x x' o, sb_greet cid ts x = (x', o) -> sc_alive x = true -> blen (sc_cmds x) <= CMD_CAP ->
  o = map (fun t => UTry cid (SSub t) TSent) (firstn (N.to_nat (CMD_CAP - blen (sc_cmds x))) ts) ++ map (fun t => UTry cid (SSub t) TFull) (skipn (N.to_nat (CMD_CAP - blen (sc_cmds x))) ts).
Proof.
  induction ts as [|t ts IH]; intros x x' o.
  - intros [= <- <-] _ _. rewrite firstn_nil, skipn_nil. reflexivity.
  - intros H A F. destruct (N.eq_dec (blen (sc_cmds x)) CMD_CAP) as [E|E].
    + destruct (greet_full _ _ _ _ _ H A) as [-> _]; [lia|]. replace (N.to_nat (CMD_CAP - blen (sc_cmds x))) with 0%nat by lia. reflexivity.
    + cbn [sb_greet] in H. unfold sc_try at 1 in H. rewrite A in H. cbn [negb] in H. destruct (N.ltb_spec (blen (sc_cmds x)) CMD_CAP); [|lia].
      destruct (sb_greet cid ts (sc_set_cmds x (sc_cmds x ++ [SSub t]))) as [x2 o2] eqn:G. injection H as <- <-.
      assert (Eb : blen (sc_cmds (sc_set_cmds x (sc_cmds x ++ [SSub t]))) = blen (sc_cmds x) + 1) by (cbn [sc_set_cmds sc_cmds]; rewrite blen_app; reflexivity).
      rewrite (IH _ _ _ G A) by lia. rewrite Eb. replace (N.to_nat (CMD_CAP - blen (sc_cmds x))) with (S (N.to_nat (CMD_CAP - (blen (sc_cmds x) + 1)))) by lia. reflexivity.
Qed.

Section P.
Variables (token : option bytes) (ingress initial : N) (D : decompressors).
Notation act := (sb_act token ingress initial D).
Notation run := (sb_run token ingress initial D).

Lemma act_open s ev s' o : SI s -> act s ev = (s', o) -> noopen o \/
  (exists k a order o1 x s0, ev <> YCommand /\ o = UOpen k a :: o1 /\ noopen o1 /\ sb_topics s0 = sb_topics s /\ sb_greet k (arrange order (sb_topics s)) (sc_new a) = (x, o1) /\ mget k (sb_conns s) = None).
Proof.
  intros HS H. destruct (act_cmd token ingress initial D _ _ _ _ H) as [_|(-> & c & q & o' & Eq & Ec & -> & _)].
  2:{ left. intros k a [Hi|Hi]; [discriminate|]. destruct c as [t|t|b|b|]; cbn [sb_command] in Ec; cbv zeta in Ec; cbn [sb_set_cmdq sb_topics sb_pubs sb_set_topics] in Ec.
      - destruct (smem t (sb_topics s)); [injection Ec as <- <-; destruct Hi|]. destruct (tell_frame _ _ _ _ _ _ Ec) as (_ & _ & B). eapply ended_noopen; eauto.
      - destruct (smem t (sb_topics s)); [|injection Ec as <- <-; destruct Hi]. destruct (tell_frame _ _ _ _ _ _ Ec) as (_ & _ & B). eapply ended_noopen; eauto.
      - destruct (mem b (sb_pubs s)); [injection Ec as <- <-; destruct Hi|]. unfold sb_connect in Ec. destruct (jm_spawn _ _) as [j w]. destruct (sb_reset initial b _) as [s3 o3] eqn:R. injection Ec as <- <-.
        destruct (reset_plain _ _ _ _ _ R) as [(_ & B & _) _]. apply in_app_or in Hi. destruct Hi as [Hi|Hi]; [destruct w; [destruct Hi as [|[]]; discriminate|destruct Hi]|]. eapply ended_noopen; eauto.
      - destruct (mget b (sb_pubs s)); [|injection Ec as <- <-; destruct Hi]. destruct (sb_release _ _) as [s2 o2] eqn:R. injection Ec as <- <-. destruct (release_plain _ _ _ _ R) as (_ & B & _). eapply ended_noopen; eauto.
      - injection Ec as <- <-. destruct Hi. }
  revert H. destruct ev as [cid e|b now| |k r order|f| |]; cbn [sb_act].
  - intros H. left. revert H. unfold sb_session. destruct (mget cid (sb_conns s)) as [x|]; [|intros [= <- <-] k a []].
    destruct (sc_alive x); [|intros [= <- <-] k a []]. destruct (ss_iter cid e x) as [[x' o'] r'] eqn:E. intros [= <- <-]. apply ended_noopen. apply (ss_iter_plain _ _ _ _ _ _ E).
  - intros H. left. revert H. unfold sb_entry. destruct (mget b (sb_pubs s)) as [[cid|bo]|]; [| |intros [= <- <-] k a []].
    + destruct (mget cid (sb_conns s)) as [x|]; [|intros [= <- <-] k a []]. destruct (sc_in x) as [|m rest].
      * destruct (sc_alive x); [intros [= <- <-] k a []|]. destruct (sb_reset initial b s) as [s1 o1] eqn:R. intros [= <- <-]. apply ended_noopen. apply (reset_plain _ _ _ _ _ R).
      * cbv zeta. destruct (try_decompress _ _ _) as [p|].
        -- unfold sb_pass. cbn [sb_set_conns sb_dropped sb_out]. destruct (sb_dropped s); [|destruct (_ <? _)]; intros [= <- <-] k a [|[]]; discriminate.
        -- intros [= <- <-] k a [|[]]; discriminate.
    + destruct (bo_poll now bo) as [b' [d| | |]]; try (intros [= <- <-] k a []; (discriminate || contradiction)).
      * cbv zeta. destruct (jm_contains b (sb_tasks s)); [intros [= <- <-] k a []|].
        unfold sb_connect. destruct (jm_spawn _ _) as [j w]. intros [= <- <-]. destruct w; [intros k a [|[]]; discriminate|intros k a []].
  - unfold sb_next_command. destruct (sb_cmdq s) as [|c q] eqn:Eq; [intros [= <- <-]; left; intros k a []|].
    destruct (sb_command initial c (sb_set_cmdq s q)) as [s1 o1] eqn:E. intros [= <- <-]. left. intros k a [Hi|Hi]; [discriminate|]. exfalso.
    destruct c as [t|t|b|b|]; cbn [sb_command] in E; cbv zeta in E; cbn [sb_set_cmdq sb_topics sb_pubs sb_set_topics] in E.
      + destruct (smem t (sb_topics s)); [injection E as <- <-; destruct Hi|]. destruct (tell_frame _ _ _ _ _ _ E) as (_ & _ & B). eapply ended_noopen; eauto.
      + destruct (smem t (sb_topics s)); [|injection E as <- <-; destruct Hi]. destruct (tell_frame _ _ _ _ _ _ E) as (_ & _ & B). eapply ended_noopen; eauto.
      + destruct (mem b (sb_pubs s)); [injection E as <- <-; destruct Hi|]. unfold sb_connect in E. destruct (jm_spawn _ _) as [j w]. destruct (sb_reset initial b _) as [s3 o3] eqn:R. injection E as <- <-.
        destruct (reset_plain _ _ _ _ _ R) as [(_ & B & _) _]. apply in_app_or in Hi. destruct Hi as [Hi|Hi]; [destruct w; [destruct Hi as [|[]]; discriminate|destruct Hi]|]. eapply ended_noopen; eauto.
      + destruct (mget b (sb_pubs s)); [|injection E as <- <-; destruct Hi]. destruct (sb_release _ _) as [s2 o2] eqn:R. injection E as <- <-. destruct (release_plain _ _ _ _ R) as (_ & B & _). eapply ended_noopen; eauto.
      + injection E as <- <-. destruct Hi.
  - unfold sb_join. destruct (nth_error (jm_tasks (sb_tasks s)) k) as [b|] eqn:N; [|intros [= <- <-]; left; intros k' a []].
    destruct r as [| |ok input]; try (intros [= <- <-]; left; intros k' a [|[]]; discriminate).
    destruct (auth_client token ok input) as [[[| | |] w] rest]; try (intros [= <- <-]; left; intros k' a [|[]]; discriminate); try (intros [= <- <-]; left; intros k' a []).
    unfold sb_connected. cbv zeta. cbn [sb_set_tasks sb_pubs sb_next sb_topics sb_cmdq sb_out sb_dropped sb_tasks sb_stats sb_conns].
    assert (Fr : mget (sb_next s) (sb_conns s) = None).
    { destruct (mget (sb_next s) (sb_conns s)) eqn:Z; [|reflexivity]. apply (si_next _ HS), N.lt_irrefl in Z. destruct Z. }
    assert (U : forall x o1, sb_greet (sb_next s) (arrange order (sb_topics s)) (sc_new b) = (x, o1) -> exists k0 a0 order0 o2 x0 s0, YJoin k (JConn ok input) order <> YCommand /\ UOpen (sb_next s) b :: o1 = UOpen k0 a0 :: o2 /\ noopen o2 /\ sb_topics s0 = sb_topics s /\ sb_greet k0 (arrange order0 (sb_topics s)) (sc_new a0) = (x0, o2) /\ mget k0 (sb_conns s) = None).
    { intros x o1 G. exists (sb_next s), b, order, o1, x, s. split; [discriminate|]. split; [reflexivity|]. split; [|auto]. apply ended_noopen. apply (greet_tried _ _ _ _ _ G). }
    destruct (mget b (sb_pubs s)) as [[c|bb]|]; try (destruct (sb_greet _ _ _) as [x o1] eqn:G); intros [= <- <-]; [left; intros k' a [|[]]; discriminate|right; eauto..].
  - intros H. left. revert H. unfold sb_call. destruct (sb_dropped s); [intros [= <- <-] k a []|]. destruct (api_command f); [destruct (_ <? _)|]; intros [= <- <-]; intros ? ? [|[]]; discriminate.
  - intros H. left. revert H. unfold sb_take. destruct (sb_out s) as [|[[[c b] t] p] q]; intros [= <- <-]; [intros k a []|intros k a [|[]]; discriminate].
  - intros H. left. revert H. unfold sb_drop. destruct (sb_dropped s); intros [= <- <-]; [intros k a []|intros k a [|[]]; discriminate].
Qed.

Lemma run_split_open k a : forall evs s s' L1 L2, SI s -> run s evs = (s', L1 ++ UOpen k a :: L2) -> exists evs1 ev evs2 s1 s2 x order o L3,
  evs = evs1 ++ ev :: evs2 /\ run s evs1 = (s1, L1) /\ sb_greet k (arrange order (sb_topics s1)) (sc_new a) = (x, o) /\ L2 = o ++ L3 /\
  act s1 ev = (s2, UOpen k a :: o) /\ run s2 evs2 = (s', L3) /\ mget k (sb_conns s1) = None.
Proof.
  induction evs as [|ev evs IH]; intros s s' L1 L2 HS; cbn [sb_run].
  - intros [= _ H]. destruct L1; discriminate.
  - destruct (act s ev) as [s1 o1] eqn:A. destruct (run s1 evs) as [s2 o2] eqn:R. intros [= <- E].
    destruct (act_step token ingress initial D _ _ _ _ HS A) as [HS1 _].
    assert (skip : forall o L1, noopen o -> o ++ o2 = L1 ++ UOpen k a :: L2 -> exists L1', L1 = o ++ L1' /\ o2 = L1' ++ UOpen k a :: L2).
    { clear. induction o as [|z o IH]; intros L1 N E; cbn in *; [eauto|]. destruct L1 as [|y L1]; cbn in E.
      - injection E as -> _. exfalso. apply (N k a). now left.
      - injection E as -> E. destruct (IH L1) as (L1' & -> & ->); eauto. intros k' a' Hi. apply (N k' a'). now right. }
    assert (rec : forall L1', L1 = o1 ++ L1' -> o2 = L1' ++ UOpen k a :: L2 -> exists evs1 ev0 evs2 s1 s2' x order o L3,
      ev :: evs = evs1 ++ ev0 :: evs2 /\ run s evs1 = (s1, L1) /\ sb_greet k (arrange order (sb_topics s1)) (sc_new a) = (x, o) /\ L2 = o ++ L3 /\
      act s1 ev0 = (s2', UOpen k a :: o) /\ run s2' evs2 = (s2, L3) /\ mget k (sb_conns s1) = None).
    { intros L1' -> ->. destruct (IH _ _ _ _ HS1 R) as (evs1 & ev1 & evs2 & sa & sb' & x & order & o & L3 & -> & R1 & G & -> & Ra & Rb & Fr).
      exists (ev :: evs1), ev1, evs2, sa, sb', x, order, o, L3. cbn [sb_run]. rewrite A, R1. auto 8. }
    destruct (act_open _ _ _ _ HS A) as [Hn|(k0 & a0 & order & o' & x & s0 & _ & -> & Hn & _ & G & Fr)].
    + destruct (skip _ _ Hn E) as (L1' & X & Y). eauto.
    + destruct L1 as [|y L1].
      * cbn in E. injection E as -> -> <-. exists [], ev, evs, s, s1, x, order, o', o2. cbn [sb_run]. auto 8.
      * cbn in E. injection E as Ey E. destruct (skip _ _ Hn E) as (L1' & X & Y). eapply rec; [|exact Y]. rewrite <- Ey, X. reflexivity.
Qed.

(** ** Connections that stay *)
Definition stays (a : addr) (cid : N) (s : sb) : Prop := mget a (sb_pubs s) = Some (PActive cid) /\ exists x, mget cid (sb_conns s) = Some x /\ sc_alive x = true.
Definition calm (a : addr) (cid : N) (z : uout) : Prop :=
  match z with UReset b | UConnect b | UGaveUp b => b <> a | UEnd c => c <> cid | UClosed c _ => c <> cid | _ => True end.

Lemma act_other s a b cid c : SI s -> mget a (sb_pubs s) = Some (PActive cid) -> mget b (sb_pubs s) = Some (PActive c) -> b <> a -> c <> cid.
Proof. intros I A B N ->. destruct (si_act _ I _ _ A) as (x & X1 & X2 & _). destruct (si_act _ I _ _ B) as (y & Y1 & Y2 & _). congruence. Qed.
Lemma release_other a b cid s s' o : SI s -> mget a (sb_pubs s) = Some (PActive cid) -> b <> a -> sb_release (mget b (sb_pubs s)) s = (s', o) ->
  sb_pubs s' = sb_pubs s /\ mget cid (sb_conns s') = mget cid (sb_conns s) /\ Forall (calm a cid) o.
Proof.
  intros I A N. unfold sb_release. destruct (mget b (sb_pubs s)) as [[c|bb]|] eqn:B; try (intros [= <- <-]; auto).
  pose proof (act_other _ _ _ _ _ I A B N) as Nc. destruct (mget c (sb_conns s)); intros [= <- <-]; cbn [sb_pubs sb_set_conns sb_conns]; [rewrite mget_set_ne by congruence|]; repeat (split; [auto|]); repeat constructor. exact Nc.
Qed.
Lemma reset_other a b cid s s' o : SI s -> stays a cid s -> b <> a -> sb_reset initial b s = (s', o) -> stays a cid s' /\ Forall (calm a cid) o.
Proof.
  intros I [A (x & Gx & Ax)] N. unfold sb_reset. destruct (sb_release (mget b (sb_pubs s)) s) as [s1 o1] eqn:R. intros [= <- <-].
  destruct (release_other _ _ _ _ _ _ I A N R) as (X & Y & Z). split; [|apply Forall_app; split; [exact Z|repeat constructor; exact N]].
  split; cbn; [rewrite mget_set_ne, X by congruence; exact A|]. rewrite Y. eauto.
Qed.
Lemma tell_stays a cid c : forall l s s' o, SI s -> stays a cid s -> NoDup (mkeys l) -> (forall b st, In (b, st) l -> mget b (sb_pubs s) = Some st) ->
  sb_tell initial c l s = (s', o) -> stays a cid s' /\ Forall (calm a cid) o.
Proof.
  induction l as [|[b st] l IH]; intros s s' o I S Nd Hl; cbn [sb_tell]; [intros [= <- <-]; auto|].
  inversion Nd as [|? ? Na Nd']; subst. fold (mkeys l) in *. pose proof (Hl b st (or_introl eq_refl)) as Gb.
  destruct st as [k|bo]; [|apply IH; auto; intros; apply Hl; now right].
  destruct (si_act _ I _ _ Gb) as (x & Gx & Ax & Hx). rewrite Gx. destruct (try_cases c x) as (r & x' & T & Ea & _ & _ & El & Eh & _ & _ & Kr). rewrite T.
  set (s1 := sb_set_conns s (mset k x' (sb_conns s))). assert (I1 : SI s1) by (eapply SI_conn; eauto).
  assert (S1 : stays a cid s1).
  { destruct S as [A (y & Gy & Ay)]. split; [exact A|]. cbn. rewrite mget_set. destruct (eq_dec cid k) as [->|]; [|eauto]. rewrite Gx in Gy. injection Gy as <-. eexists; split; [reflexivity|congruence]. }
  destruct (match r with TClosed => sb_reset initial b s1 | _ => (s1, []) end) as [s2 o2] eqn:E2.
  assert (X : SI s2 /\ stays a cid s2 /\ Forall (calm a cid) o2 /\ (forall b', b' <> b -> mget b' (sb_pubs s2) = mget b' (sb_pubs s))).
  { destruct r; try (injection E2 as <- <-; repeat (split; [auto|]); auto).
    assert (N : b <> a). { intros ->. destruct S as [A (y & Gy & Ay)]. assert (k = cid) by congruence. subst k. destruct Kr as [(_ & Q & _)|[(Q & _)|(Q & _)]]; [congruence|discriminate..]. }
    destruct (reset_other a b cid _ _ _ I1 S1 N E2). destruct (reset_step initial D _ _ _ _ I1 E2) as (I2 & _). destruct (reset_pubs _ _ _ _ _ E2) as [P _]. auto. }
  destruct X as (I2 & S2 & F2 & P2). destruct (sb_tell initial c l s2) as [s3 o3] eqn:E3. intros [= <- <-].
  destruct (IH s2 s3 o3 I2 S2 Nd') as [S3 F3]; [|exact E3|].
  { intros b' st' Hi. rewrite P2; [apply Hl; now right|]. intros ->. apply Na. apply (in_map fst) in Hi. exact Hi. }
  split; [exact S3|]. constructor; [exact Logic.I|]. apply Forall_app; auto.
Qed.

Lemma ss_iter_calm cid a e x x' o r : ss_iter cid e x = (x', o, r) -> sc_held x = true -> sc_alive x = true -> ~ In (UCrash cid) o -> sc_alive x' = true /\ forall k, Forall (calm a k) o.
Proof.
  assert (EG : forall eg ans e o p f, eg_loop cid eg ans = (e, o, p, f) -> forall k, Forall (calm a k) o).
  { induction eg as [|m rest IH]; intros ans e0 o0 p f; cbn [eg_loop]; [intros [= <- <- <- <-] k; constructor|].
    destruct ans as [|[| |] ans']; try (destruct (eg_loop cid rest ans') as [[[e' o'] p'] f'] eqn:R); intros [= <- <- <- <-] k; constructor; try exact Logic.I; try constructor; eapply IH; eauto. }
  unfold ss_iter. cbv zeta. intros H Hh Ha Nc.
  destruct (eg_loop cid (sc_egress (sc_set_egress x (sc_egress x) (if sc_flush x && y_flush e then false else sc_flush x))) (y_sends e)) as [[[eg o1] p] f] eqn:R.
  specialize (EG _ _ _ _ _ _ R).
  assert (K : (if p then (sc_set_egress (sc_set_egress x (sc_egress x) (if sc_flush x && y_flush e then false else sc_flush x)) eg (f || (if sc_flush x && y_flush e then false else sc_flush x)), o1, SCont) else
    match sc_cmds x with
    | c :: cs => match cmd_frame (y_now e) c with
      | Some m => (sc_set_cmds (sc_set_egress (sc_set_egress (sc_set_egress x (sc_egress x) (if sc_flush x && y_flush e then false else sc_flush x)) eg (f || (if sc_flush x && y_flush e then false else sc_flush x))) (eg ++ [m]) (f || (if sc_flush x && y_flush e then false else sc_flush x))) cs, o1 ++ [UGot cid c], SCont)
      | None => (sc_finish (sc_set_egress (sc_set_egress x (sc_egress x) (if sc_flush x && y_flush e then false else sc_flush x)) eg (f || (if sc_flush x && y_flush e then false else sc_flush x))), o1 ++ [UGot cid c; UCrash cid], SCrash) end
    | [] => if sc_held x then (sc_set_egress (sc_set_egress x (sc_egress x) (if sc_flush x && y_flush e then false else sc_flush x)) eg (f || (if sc_flush x && y_flush e then false else sc_flush x)), o1, SPend) else (sc_finish (sc_set_egress (sc_set_egress x (sc_egress x) (if sc_flush x && y_flush e then false else sc_flush x)) eg (f || (if sc_flush x && y_flush e then false else sc_flush x))), o1 ++ [UEnd cid], SDone) end) = (x', o, r) ->
    sc_alive x' = true /\ forall k, Forall (calm a k) o).
  { destruct p; [intros [= <- <- <-]; auto|]. destruct (sc_cmds x) as [|c cs].
    - rewrite Hh. intros [= <- <- <-]; auto.
    - destruct (cmd_frame (y_now e) c); intros [= <- <- <-].
      + split; [exact Ha|]. intros k. apply Forall_app; split; [auto|repeat constructor].
      + exfalso. apply Nc. apply in_or_app. right. right. now left. }
  destruct (y_next e) as [m| | |].
  - destruct (incoming_cases cid (y_now e) m (sc_set_egress x (sc_egress x) (if sc_flush x && y_flush e then false else sc_flush x))) as (r0 & x0 & EE & _ & _ & _ & El & _). rewrite EE in H. injection H as <- <- <-.
    split; [rewrite El; exact Ha|]. repeat constructor.
  - injection H as <- <- <-. split; [exact Ha|]. repeat constructor.
  - exact (K H).
  - exact (K H).
Qed.

Lemma act_stays a cid s ev s' o : SI s -> act s ev = (s', o) -> stays a cid s -> ~ In (UCmd (CDisconnect a)) o -> ~ In (UCrash cid) o ->
  stays a cid s' /\ Forall (calm a cid) o.
Proof.
  intros HS H [Sa (x & Gx & Ax)] Nd Nc. pose proof (conj Sa (ex_intro _ x (conj Gx Ax)) : stays a cid s) as S. revert H.
  destruct (si_act _ HS _ _ Sa) as (x0 & G0 & Aa & Hh). rewrite Gx in G0. injection G0 as <-.
  destruct ev as [k e|b now| |k r order|f| |]; cbn [sb_act].
  - unfold sb_session. destruct (mget k (sb_conns s)) as [y|] eqn:Gk; [|intros [= <- <-]; auto].
    destruct (sc_alive y) eqn:Ay; [|intros [= <- <-]; auto]. destruct (ss_iter k e y) as [[y' o'] r'] eqn:E. intros [= <- <-].
    destruct (eq_dec k cid) as [->|N].
    + rewrite Gx in Gk. injection Gk as <-. destruct (ss_iter_calm _ a _ _ _ _ _ E Hh Ax Nc) as [A B]. split; [|auto]. split; [exact Sa|]. cbn. rewrite mget_set_eq. eauto.
    + split; [split; [exact Sa|]; cbn; rewrite mget_set_ne by congruence; eauto|].
      pose proof (ss_iter_csts D _ _ _ _ _ _ E Ay) as (F & _). pose proof (ss_iter_plain _ _ _ _ _ _ E) as ((_ & _ & _ & _ & _ & At) & _).
      assert (NR : forall z, In z o' -> about k z = true) by (apply Forall_forall; exact F).
      apply Forall_forall. intros z Hz. specialize (NR z Hz). destruct z; cbn in NR |- *; try exact Logic.I; try discriminate; destruct (eq_dec cid0 k); congruence.
  - unfold sb_entry. destruct (mget b (sb_pubs s)) as [[c|bo]|] eqn:Gb; [| |intros [= <- <-]; auto].
    + destruct (si_act _ HS _ _ Gb) as (y & Gy & Ay & Hy). rewrite Gy. destruct (sc_in y) as [|m rest] eqn:Ei.
      * destruct (sc_alive y) eqn:Al; [intros [= <- <-]; auto|]. destruct (sb_reset initial b s) as [s1 o1] eqn:R. intros [= <- <-].
        assert (N : b <> a) by (intros ->; congruence). eapply reset_other; eauto.
      * cbv zeta. set (s1 := sb_set_conns s (mset c (sc_set_in y rest) (sb_conns s))).
        assert (S1 : stays a cid s1). { split; [exact Sa|]. cbn. rewrite mget_set. destruct (eq_dec cid c) as [->|]; [|eauto]. rewrite Gx in Gy. injection Gy as <-. eauto. }
        destruct (try_decompress _ _ _) as [p|]; [|intros [= <- <-]; split; [exact S1|repeat constructor]].
        unfold sb_pass. destruct (sb_dropped s1); [|destruct (_ <? _)]; intros [= <- <-]; (split; [exact S1|repeat constructor]).
    + assert (N : b <> a) by congruence. destruct (bo_poll now bo) as [b' [d| | |]].
      * cbv zeta. destruct (jm_contains b (sb_tasks s)); [intros [= <- <-]; split; [|constructor]; split; [cbn; rewrite mget_set_ne by congruence; exact Sa|eauto]|].
        unfold sb_connect. destruct (jm_spawn _ _) as [j w]. intros [= <- <-]. split; [split; [cbn; rewrite mget_set_ne by congruence; exact Sa|eauto]|]. destruct w; repeat constructor. exact N.
      * intros [= <- <-]. split; [split; [cbn; rewrite mget_del_ne by congruence; exact Sa|eauto]|]. repeat constructor. exact N.
      * intros [= <- <-]. split; [split; [cbn; rewrite mget_set_ne by congruence; exact Sa|eauto]|]. repeat constructor.
      * intros [= <- <-]. auto.
  - unfold sb_next_command. destruct (sb_cmdq s) as [|c q] eqn:Eq; [intros [= <- <-]; auto|].
    destruct (sb_command initial c (sb_set_cmdq s q)) as [s1 o1] eqn:E. intros [= <- <-].
    assert (K : stays a cid s1 /\ Forall (calm a cid) o1); [|destruct K; split; [assumption|constructor; [exact Logic.I|assumption]]].
    assert (tl : forall sc tps, NoDup tps -> sb_tell initial sc (sb_pubs s) (sb_set_topics (sb_set_cmdq s q) tps) = (s1, o1) -> stays a cid s1 /\ Forall (calm a cid) o1).
    { intros sc tps Nt T. eapply tell_stays; [| | | |exact T]; [apply SI_topics; [now apply SI_cmdq|exact Nt]|exact S|apply (si_nd _ HS)|]. intros b st Hi. apply in_mget; [apply (si_nd _ HS)|exact Hi]. }
    destruct c as [t|t|b|b|]; cbn [sb_command] in E; cbv zeta in E; cbn [sb_set_cmdq sb_topics sb_pubs sb_set_topics] in E.
    + destruct (smem t (sb_topics s)); [injection E as <- <-; auto|eapply tl; [|exact E]; apply nodup_sins, (si_top _ HS)].
    + destruct (smem t (sb_topics s)); [eapply tl; [|exact E]; apply nodup_sdel, (si_top _ HS)|injection E as <- <-; auto].
    + destruct (mem b (sb_pubs s)) eqn:M; [injection E as <- <-; auto|].
      assert (N : b <> a). { intros ->. unfold mem in M. rewrite Sa in M. discriminate. }
      unfold sb_connect in E. destruct (jm_spawn _ _) as [j w] eqn:J. destruct (sb_reset initial b _) as [s3 o3] eqn:R. injection E as <- <-.
      destruct (reset_other a b cid _ _ _ (SI_tasks _ j (SI_cmdq _ q HS)) S N R) as [A B]. split; [exact A|]. apply Forall_app. split; [destruct w; repeat constructor; exact N|exact B].
    + assert (N : b <> a) by (intros ->; apply Nd; now left). destruct (mget b (sb_pubs s)) as [st|] eqn:Gb; [|injection E as <- <-; auto]. destruct (sb_release (Some st) (sb_set_cmdq s q)) as [s2 o2] eqn:R. injection E as <- <-.
      rewrite <- Gb in R. change (sb_pubs s) with (sb_pubs (sb_set_cmdq s q)) in R. destruct (release_other a b cid _ _ _ (SI_cmdq _ q HS) Sa N R) as (X & Y & Z). split; [|exact Z].
      split; cbn; [rewrite mget_del_ne, X by congruence; exact Sa|]. rewrite Y. exists x; auto.
    + injection E as <- <-; auto.
  - unfold sb_join. destruct (nth_error (jm_tasks (sb_tasks s)) k) as [b|] eqn:N; [|intros [= <- <-]; auto].
    destruct r as [| |ok input]; try (intros [= <- <-]; split; [exact S|repeat constructor]).
    destruct (auth_client token ok input) as [[[| | |] w] rest]; try (intros [= <- <-]; split; [exact S|repeat constructor]).
    unfold sb_connected. cbv zeta. cbn [sb_set_tasks sb_pubs sb_next sb_topics sb_cmdq sb_out sb_dropped sb_tasks sb_stats sb_conns].
    assert (Nx : cid <> sb_next s) by (intros ->; apply (si_next _ HS), N.lt_irrefl in Gx; exact Gx).
    assert (U : forall x1 o1, sb_greet (sb_next s) (arrange order (sb_topics s)) (sc_new b) = (x1, o1) -> Forall (calm a cid) (UOpen (sb_next s) b :: o1)).
    { intros x1 o1 G. constructor; [exact Logic.I|]. assert (X : forall ts x x' o, sb_greet (sb_next s) ts x = (x', o) -> Forall (calm a cid) o); [|eauto].
      clear. induction ts as [|t ts IH]; intros x x' o; cbn [sb_greet]; [intros [= <- <-]; constructor|]. destruct (sc_try (SSub t) x) as [x1 r]. destruct (sb_greet (sb_next s) ts x1) as [x2 o2] eqn:G. intros [= <- <-]. constructor; [exact Logic.I|eauto]. }
    destruct (mget b (sb_pubs s)) as [[c|bb]|] eqn:Gb; try (destruct (sb_greet _ _ _) as [x1 o1] eqn:G); intros [= <- <-].
    + split; [exact S|repeat constructor].
    + split; [|eauto]. split; cbn; [rewrite mget_set_ne by congruence; exact Sa|rewrite mget_set_ne by exact Nx; eauto].
    + split; [|eauto]. split; cbn; [rewrite mget_set_ne by congruence; exact Sa|rewrite mget_set_ne by exact Nx; eauto].
  - unfold sb_call. destruct (sb_dropped s); [intros [= <- <-]; auto|]. destruct (api_command f); [destruct (_ <? _)|]; intros [= <- <-]; split; try exact S; repeat constructor.
  - unfold sb_take. destruct (sb_out s) as [|[[[c b] t] p] q]; intros [= <- <-]; split; try exact S; repeat constructor.
  - unfold sb_drop. destruct (sb_dropped s); intros [= <- <-]; split; try exact S; repeat constructor.
Qed.
Lemma run_stays a cid : forall evs s s' o, SI s -> run s evs = (s', o) -> stays a cid s -> ~ In (CDisconnect a) (commands o) -> ~ In (UCrash cid) o ->
  stays a cid s' /\ Forall (calm a cid) o.
Proof.
  induction evs as [|ev evs IH]; intros s s' o HS; cbn [sb_run]; [intros [= <- <-]; auto|].
  destruct (act s ev) as [s1 o1] eqn:A. destruct (run s1 evs) as [s2 o2] eqn:R. intros [= <- <-] S Nd Nc. rewrite commands_app, in_app_iff in Nd. rewrite in_app_iff in Nc.
  destruct (act_stays a cid _ _ _ _ HS A S) as [S1 F1]; [intros Hi; apply Nd; left; now apply commands_in|tauto|].
  destruct (act_step token ingress initial D _ _ _ _ HS A) as [HS1 _]. destruct (IH _ _ _ HS1 R S1) as [S2 F2]; [tauto|tauto|]. split; [exact S2|]. apply Forall_app; auto.
Qed.
End P.
