(** C95: a subscriber redials on schedule. *)
From Coq Require Import List NArith.
From Verif Require Import Model.Base Model.Map Model.Stats Model.Framed Model.WirePubSub Model.WireAuth Model.Compression Model.Handshake Model.Utf8 Model.Backoff Model.JoinMap Model.PubDriver Model.SubDriver
  Spec.Utf8Spec Spec.BackoffSpec Spec.ReqSpec Spec.SubSpec Spec.RedialSpec.
Import ListNotations.
Open Scope N_scope.
(*HEADEND*)
From Coq Require Import ZArith ZifyBool ZifyNat ZifyN.
From Verif Require Import Proofs.BaseP Proofs.MapP Proofs.SubDriverP Proofs.SubDriverP2 Proofs.SubDriverP3 Proofs.SubDriverP4 Proofs.SubDriverP5 Proofs.SubDriverP8 Proofs.SubDriverP10.
Local Open Scope N_scope.

Section P.
Variables (token : option bytes) (ingress initial : N) (D : decompressors).
Notation act := (sb_act token ingress initial D).
Notation run := (sb_run token ingress initial D).
Notation fresh := (PInactive (bo_new initial MAX_RETRIES)).

Lemma und_app a x y : undisturbed a (x ++ y) -> undisturbed a x /\ undisturbed a y.
Proof.
  unfold undisturbed. rewrite commands_app. setoid_rewrite in_app_iff. intros (A & B & C). split; (split; [tauto|]); (split; [|tauto]); intros c H; apply (B c); tauto.
Qed.
Lemma reset_get a s s' o : sb_reset initial a s = (s', o) -> mget a (sb_pubs s') = Some fresh /\ In (UReset a) o /\ forall b, b <> a -> ~ In (UReset b) o.
Proof.
  unfold sb_reset. destruct (sb_release (mget a (sb_pubs s)) s) as [s1 o1] eqn:R. intros [= <- <-]. cbn [sb_set_pubs sb_pubs]. rewrite mget_set_eq. split; [reflexivity|]. split; [apply in_or_app; right; now left|].
  intros b Hb Hi. apply in_app_or in Hi. destruct Hi as [Hi|[Hi|[]]]; [|congruence]. unfold sb_release in R. destruct (mget a (sb_pubs s)) as [[c|]|]; [destruct (mget c (sb_conns s))|..]; injection R as <- <-; cbn in Hi; intuition discriminate.
Qed.

(** Telling a command to all publishers leaves those that are not reset alone. *)
Lemma tell_get c a : forall l s s' o, sb_tell initial c l s = (s', o) ->
  (In (UReset a) o -> mget a (sb_pubs s') = Some fresh) /\ (~ In (UReset a) o -> mget a (sb_pubs s') = mget a (sb_pubs s)).
Proof.
  induction l as [|[b [cid|bo]] l IH]; intros s s' o; cbn [sb_tell].
  - intros [= <- <-]. split; [intros []|auto].
  - destruct (mget cid (sb_conns s)) as [x|]; [|apply IH]. destruct (sc_try c x) as [x' r]. set (s1 := sb_set_conns s (mset cid x' (sb_conns s))).
    destruct (match r with TClosed => sb_reset initial b s1 | _ => (s1, []) end) as [s2 o2] eqn:E2. destruct (sb_tell initial c l s2) as [s3 o3] eqn:E3. intros [= <- <-]. destruct (IH _ _ _ E3) as (I1 & I2).
    assert (Q : (In (UReset a) o2 -> mget a (sb_pubs s2) = Some fresh) /\ (~ In (UReset a) o2 -> mget a (sb_pubs s2) = mget a (sb_pubs s))).
    { destruct r; try (injection E2 as <- <-; split; [intros []|reflexivity]). destruct (reset_get _ _ _ _ E2) as (Q1 & Q2 & Q3). destruct (reset_pubs initial _ _ _ _ E2) as (Q4 & _). destruct (eq_dec a b) as [->|N]; [split; [auto|contradiction]|].
      split; [intros H; destruct (Q3 a N H)|]. intros _. rewrite Q4 by exact N. reflexivity. }
    destruct Q as (Q1 & Q2). assert (Dc : In (UReset a) o3 \/ ~ In (UReset a) o3).
    { clear. induction o3 as [|z o IH]; [right; intros []|]. destruct IH as [IH|IH]; [left; now right|]. destruct z; try (right; intros [X|X]; [discriminate|contradiction]). destruct (eq_dec a0 a) as [->|N]; [left; now left|right; intros [X|X]; [congruence|contradiction]]. }
    split.
    + intros [H|H]; [discriminate|]. apply in_app_or in H. destruct Dc as [Dc|Dc]; [auto|]. destruct H as [H|H]; [|contradiction]. rewrite I2 by exact Dc. auto.
    + intros H. rewrite I2 by (intros X; apply H; right; apply in_or_app; now right). apply Q2. intros X. apply H. right. apply in_or_app. now left.
  - apply IH.
Qed.


Lemma eg_noreset cid a : forall eg ans e o p f, eg_loop cid eg ans = (e, o, p, f) -> ~ In (UReset a) o.
Proof.
  induction eg as [|m eg IH]; intros ans e o p f; cbn [eg_loop]; [intros [= <- <- <- <-] []|].
  destruct ans as [|[| |] ans]; try (intros [= <- <- <- <-] [H|[]]; discriminate H).
  - destruct (eg_loop cid eg ans) as [[[e1 o1] p1] f1] eqn:E. intros [= <- <- <- <-] [H|H]; [discriminate H|]. exact (IH _ _ _ _ _ E H).
  - destruct (eg_loop cid eg ans) as [[[e1 o1] p1] f1] eqn:E. intros [= <- <- <- <-] [H|H]; [discriminate H|]. exact (IH _ _ _ _ _ E H).
Qed.
Lemma ss_noreset cid e x x' o r a : ss_iter cid e x = (x', o, r) -> ~ In (UReset a) o.
Proof.
  unfold ss_iter, ss_incoming. cbv zeta. destruct (y_next e).
  - destruct (negb _); [|destruct (_ <? _)]; intros [= <- <- <-] [H|[]]; discriminate H.
  - intros [= <- <- <-] [H|[]]; discriminate H.
  - destruct (eg_loop _ _ _) as [[[eg o1] p] f] eqn:E. apply (eg_noreset cid a) in E. destruct p; [intros [= <- <- <-]; exact E|]. destruct (sc_cmds _) as [|c cs]; [destruct (sc_held _)|destruct (cmd_frame _ _)]; intros [= <- <- <-]; rewrite ?in_app_iff; cbn; intuition discriminate.
  - destruct (eg_loop _ _ _) as [[[eg o1] p] f] eqn:E. apply (eg_noreset cid a) in E. destruct p; [intros [= <- <- <-]; exact E|]. destruct (sc_cmds _) as [|c cs]; [destruct (sc_held _)|destruct (cmd_frame _ _)]; intros [= <- <- <-]; rewrite ?in_app_iff; cbn; intuition discriminate.
Qed.
Lemma pass_get cid a m p s s' o : sb_pass ingress cid a m p s = (s', o) -> sb_pubs s' = sb_pubs s /\ (forall b, ~ In (UReset b) o) /\ (forall c b, ~ In (UOpen c b) o).
Proof. unfold sb_pass. destruct (sb_dropped s); [|destruct (_ <? _)]; intros [= <- <-]; (split; [reflexivity|]; split; intros; cbn; intuition discriminate). Qed.
Lemma connect_get a s s' o : sb_connect a s = (s', o) -> sb_pubs s' = sb_pubs s /\ (forall b, ~ In (UReset b) o).
Proof. unfold sb_connect. destruct (jm_spawn a (sb_tasks s)) as [j []]; intros [= <- <-]; (split; [reflexivity|]); intros; cbn; intuition discriminate. Qed.
Lemma release_noreset st s s' o b : sb_release st s = (s', o) -> ~ In (UReset b) o.
Proof. unfold sb_release. destruct st as [[c|]|]; [destruct (mget c (sb_conns s))|..]; intros [= <- <-]; cbn; intuition discriminate. Qed.
Lemma greet_noreset cid a : forall ts x x' o, sb_greet cid ts x = (x', o) -> ~ In (UReset a) o.
Proof. induction ts as [|t ts IH]; intros x x' o; cbn [sb_greet]; [intros [= <- <-] []|]. destruct (sc_try _ x) as [x1 r]. destruct (sb_greet cid ts x1) as [x2 o2] eqn:G. intros [= <- <-] [H|H]; [discriminate|]. exact (IH _ _ _ G H). Qed.

(** Any event: the publisher is reset, or not touched, unless it is looked at, connected or disconnected. *)
Lemma act_get a s ev s' o : act s ev = (s', o) ->
  (In (UReset a) o -> mget a (sb_pubs s') = Some fresh) /\
  (undisturbed a o -> (forall t, ev <> YEntry a t) -> mget a (sb_pubs s') = mget a (sb_pubs s)).
Proof.
  assert (Keep : forall s s' (o : list uout), (forall b, ~ In (UReset b) o) -> sb_pubs s' = sb_pubs s -> (In (UReset a) o -> mget a (sb_pubs s') = Some fresh) /\ (undisturbed a o -> (forall t, ev <> YEntry a t) -> mget a (sb_pubs s') = mget a (sb_pubs s))).
  { intros u u' o' N E. split; [intros H; destruct (N a H)|]. intros _ _. now rewrite E. }
  destruct ev as [cid e|b now| |k r order|f| |]; cbn [sb_act].
  - unfold sb_session. destruct (mget cid (sb_conns s)) as [x|]; [|intros [= <- <-]; apply Keep; auto]. destruct (sc_alive x); [|intros [= <- <-]; apply Keep; auto].
    destruct (ss_iter cid e x) as [[x' o'] r] eqn:E. intros [= <- <-]. apply Keep; [intros b; eapply ss_noreset; eauto|reflexivity].
  - unfold sb_entry. destruct (mget b (sb_pubs s)) as [[c|bo]|] eqn:G; [|..|intros [= <- <-]; apply Keep; auto].
    + destruct (mget c (sb_conns s)) as [x|]; [|intros [= <- <-]; apply Keep; auto]. destruct (sc_in x) as [|m rest].
      * destruct (sc_alive x); [intros [= <- <-]; apply Keep; auto|]. destruct (sb_reset initial b s) as [s1 o1] eqn:R. intros [= <- <-]. destruct (reset_get _ _ _ _ R) as (R1 & R2 & R3). destruct (reset_pubs initial _ _ _ _ R) as (R4 & _).
        split; [intros H; destruct (eq_dec a b) as [->|N]; [exact R1|destruct (R3 a N H)]|]. intros _ N. apply R4. intros ->. exact (N now eq_refl).
      * destruct (try_decompress _ _ _) as [pl|]; [|intros [= <- <-]; apply Keep; [cbn; intuition discriminate|reflexivity]]. destruct (sb_pass ingress c b m pl _) as [s2 o2] eqn:P. intros [= <- <-]. destruct (pass_get _ _ _ _ _ _ _ P) as (P1 & P2 & _). apply Keep; auto.
    + assert (K : forall st0 s1 (o1 : list uout), (forall d, ~ In (UReset d) o1) -> sb_pubs s1 = st0 -> (b <> a -> mget a st0 = mget a (sb_pubs s)) -> (In (UReset a) o1 -> mget a (sb_pubs s1) = Some fresh) /\ (undisturbed a o1 -> (forall t, YEntry b now <> YEntry a t) -> mget a (sb_pubs s1) = mget a (sb_pubs s))).
      { intros st0 s1 o1 N E Q. split; [intros H; destruct (N a H)|]. intros _ Ne. rewrite E. apply Q. intros ->. exact (Ne now eq_refl). }
      destruct (bo_poll now bo) as [bo' [d| | |]].
      * cbv zeta. destruct (jm_contains b (sb_tasks s)); [intros [= <- <-]; eapply K; [auto|reflexivity|]; intros N; cbn [sb_set_pubs sb_pubs]; apply mget_set_ne; congruence|].
        destruct (sb_connect b _) as [s2 o2] eqn:C. intros [= <- <-]. destruct (connect_get _ _ _ _ C) as (C1 & C2). eapply K; [exact C2|exact C1|]. intros N. cbn [sb_set_pubs sb_pubs]. apply mget_set_ne. congruence.
      * intros [= <- <-]. eapply K; [cbn; intuition discriminate|reflexivity|]. intros N. apply mget_del_ne. congruence.
      * intros [= <- <-]. eapply K; [auto|reflexivity|]. intros N. apply mget_set_ne. congruence.
      * intros [= <- <-]. apply Keep; auto.
  - unfold sb_next_command. destruct (sb_cmdq s) as [|c q]; [intros [= <- <-]; apply Keep; auto|]. destruct (sb_command initial c (sb_set_cmdq s q)) as [s1 o1] eqn:E. intros [= <- <-].
    assert (Q : (In (UReset a) o1 -> mget a (sb_pubs s1) = Some fresh) /\ (~ In (UReset a) o1 -> c <> CDisconnect a -> mget a (sb_pubs s1) = mget a (sb_pubs s))).
    { revert E. destruct c as [t|t|b|b|]; cbn [sb_command].
      - destruct (smem t _); [intros [= <- <-]; split; [intros []|auto]|]. cbv zeta. intros E. destruct (tell_get _ a _ _ _ _ E) as (E1 & E2). split; [exact E1|]. intros N _. rewrite E2 by exact N. reflexivity.
      - destruct (smem t _); [|intros [= <- <-]; split; [intros []|auto]]. cbv zeta. intros E. destruct (tell_get _ a _ _ _ _ E) as (E1 & E2). split; [exact E1|]. intros N _. rewrite E2 by exact N. reflexivity.
      - destruct (mem b _); [intros [= <- <-]; split; [intros []|auto]|]. destruct (sb_connect b _) as [s2 o2] eqn:C. destruct (sb_reset initial b s2) as [s3 o3] eqn:R. intros [= <- <-]. destruct (connect_get _ _ _ _ C) as (C1 & C2).
        destruct (reset_get _ _ _ _ R) as (R1 & R2 & R3). destruct (reset_pubs initial _ _ _ _ R) as (R4 & _). rewrite in_app_iff. destruct (eq_dec a b) as [->|N].
        + split; [auto|]. intros X. exfalso. apply X. now right.
        + split; [intros [X|X]; [destruct (C2 a X)|destruct (R3 a N X)]|]. intros _ _. rewrite R4, C1 by exact N. reflexivity.
      - cbn [sb_set_cmdq sb_pubs]. destruct (mget b (sb_pubs s)) as [st|]; [|intros [= <- <-]; split; [intros []|auto]]. destruct (sb_release (Some st) _) as [s2 o2] eqn:R. intros [= <- <-]. destruct (release_pubs _ _ _ _ R) as (R1 & _).
        split; [intros X; destruct (release_noreset _ _ _ _ a R X)|]. intros _ N. cbn [sb_set_stats sb_set_pubs sb_pubs]. rewrite R1. apply mget_del_ne. congruence.
      - intros [= <- <-]. split; [intros []|auto]. }
    destruct Q as (Q1 & Q2). split; [intros [H|H]; [discriminate|auto]|]. intros (U1 & _ & U3) _. apply Q2; [intros X; apply U1; now right|]. intros ->. apply U3. now left.
  - unfold sb_join. destruct (nth_error _ k) as [b|]; [|intros [= <- <-]; apply Keep; auto]. destruct r as [| |ok input]; try (intros [= <- <-]; apply Keep; [cbn; intuition discriminate|reflexivity]).
    destruct (auth_client token ok input) as [[[| | |] ?] ?]; try (intros [= <- <-]; apply Keep; [cbn; intuition discriminate|reflexivity]); try (intros [= <- <-]; apply Keep; auto; reflexivity).
    destruct (sb_connected b order _) as [s2 o2] eqn:C. intros [= <- <-]. revert C. unfold sb_connected. cbn [sb_set_tasks sb_pubs].
    assert (F : (let cid := sb_next (sb_set_tasks s (fst (jm_join k false (sb_tasks s)))) in
       let (x, o0) := sb_greet cid (arrange order (sb_topics s)) (sc_new b) in (mkSb (sb_cmdq s) (sb_out s) (sb_dropped s) (fst (jm_join k false (sb_tasks s))) (sb_topics s) (mset b (PActive cid) (sb_pubs s)) (mset b cid (sb_stats s)) (mset cid x (sb_conns s)) (cid + 1), UOpen cid b :: o0)) = (s2, o2) ->
       (In (UReset a) o2 -> mget a (sb_pubs s2) = Some fresh) /\ (undisturbed a o2 -> (forall t, YJoin k (JConn ok input) order <> YEntry a t) -> mget a (sb_pubs s2) = mget a (sb_pubs s))).
    { cbv zeta. destruct (sb_greet _ _ _) as [x o0] eqn:Gr. intros [= <- <-]. split; [intros [H|H]; [discriminate|destruct (greet_noreset _ a _ _ _ _ Gr H)]|]. intros (_ & U & _) _. cbn [sb_pubs]. apply mget_set_ne. intros ->. apply (U (sb_next s)). now left. }
    destruct (mget b (sb_pubs s)) as [[c|]|]; [intros [= <- <-]; apply Keep; [cbn; intuition discriminate|reflexivity]|exact F|exact F].
  - unfold sb_call. destruct (sb_dropped s); [intros [= <- <-]; apply Keep; auto|]. destruct (api_command f); [destruct (_ <? _)|]; intros [= <- <-]; apply Keep; try reflexivity; cbn; intuition discriminate.
  - unfold sb_take. destruct (sb_out s) as [|[[[c d] t] p] q]; intros [= <- <-]; apply Keep; try reflexivity; cbn; intuition discriminate.
  - unfold sb_drop. destruct (sb_dropped s); intros [= <- <-]; apply Keep; try reflexivity; cbn; intuition discriminate.
Qed.

(** The state of the schedule. *)
Definition onsched (a : addr) (s : sb) (st : option (N * nat * option N)) : Prop :=
  match st with
  | None => mget a (sb_pubs s) = None
  | Some (w, l, since) => exists b, mget a (sb_pubs s) = Some (PInactive b) /\ bo_max b = 16 /\ bo_count b + N.of_nat l = 15 /\ bo_cur b = w /\
      bo_timeout b = option_map (fun u => u + w) since /\ w * 2 ^ (N.of_nat l + 1) <= longest
  end.
Definition redials_st (st : option (N * nat * option N)) (ts : list N) : list redial :=
  match st with None => map (fun _ => RdNothing) ts | Some (w, l, since) => redials w l since ts end.

Lemma look_step a s st t s' o : onsched a s st -> act s (YEntry a t) = (s', o) ->
  exists st' r, (forall ts, redials_st st (t :: ts) = r :: redials_st st' ts) /\ onsched a s' st' /\
    match r with RdNothing => o = [] | RdGiveUp => o = [UGaveUp a] | RdDial => o = if jm_contains a (sb_tasks s) then [] else [UConnect a] end.
Proof.
  intros J A. cbn [sb_act] in A. unfold sb_entry in A. destruct st as [[[w l] since]|]; cbn [onsched] in J.
  2:{ rewrite J in A. injection A as <- <-. exists None, RdNothing. auto. }
  destruct J as (b & G & M & C & W & T & O). rewrite G in A.
  set (start := match since with Some u => u | None => t end).
  assert (Cap : forall n, (n < 15)%nat -> True) by auto. clear Cap.
  assert (O2 : w * 2 <= longest). { assert (2 <= 2 ^ (N.of_nat l + 1)) by (rewrite N.pow_add_r; assert (2 ^ N.of_nat l <> 0) by (apply N.pow_nonzero; lia); lia). nia. }
  assert (P : bo_poll t b = bo_armed t (start + w) (mkBackoff (bo_count b) 16 w (Some (start + w)))).
  { unfold bo_poll. rewrite T. destruct since as [u|]; cbn [option_map start]; subst start.
    - destruct b as [bc bm bw bt]. cbn in *. subst. reflexivity.
    - unfold bo_reset. rewrite M, W. reflexivity. }
  rewrite P in A. unfold bo_armed in A. cbn [bo_cur bo_count bo_max bo_timeout] in A. cbn [redials_st redials]. fold start.
  destruct (N.leb_spec (start + w) t) as [Le|Gt].
  2:{ injection A as <- <-. exists (Some (w, l, Some start)), RdNothing. split; [|split; [|reflexivity]].
      - intros ts. destruct (N.ltb_spec t (start + w)); [reflexivity|lia].
      - cbn [onsched sb_set_pubs sb_pubs]. rewrite mget_set_eq. eexists. split; [reflexivity|]. cbn [bo_max bo_count bo_cur bo_timeout option_map]. auto. }
  destruct (N.ltb_spec t (start + w)) as [|_]; [lia|]. change DURATION_MAX with longest in A. destruct (N.ltb_spec longest (w * 2)); [lia|].
  destruct l as [|l].
  - destruct (N.leb_spec 16 (bo_count b + 1)) as [_|]; [|lia]. injection A as <- <-. exists None, RdGiveUp. split; [reflexivity|]. split; [|reflexivity]. cbn. apply mget_del_eq.
  - destruct (N.leb_spec 16 (bo_count b + 1)) as [|_]; [lia|]. cbv zeta in A. unfold bo_reset in A. cbn [bo_count bo_max bo_cur] in A.
    exists (Some (2 * w, l, Some t)), RdDial. split; [reflexivity|].
    assert (Q : forall s1, sb_pubs s1 = mset a (PInactive (mkBackoff (bo_count b + 1) 16 (w * 2) (Some (t + w * 2)))) (sb_pubs s) -> onsched a s1 (Some (2 * w, l, Some t))).
    { intros s1 E. cbn [onsched]. rewrite E, mget_set_eq. eexists. split; [reflexivity|]. cbn [bo_max bo_count bo_cur bo_timeout option_map]. repeat split; try lia; [f_equal; lia|].
      replace (N.of_nat (S l) + 1) with (1 + (N.of_nat l + 1)) in O by lia. rewrite N.pow_add_r in O. change (2 ^ 1) with 2 in O. lia. }
    destruct (jm_contains a (sb_tasks s)) eqn:Jc.
    + injection A as <- <-. split; [|reflexivity]. apply Q. reflexivity.
    + unfold sb_connect, jm_spawn in A. cbn [sb_set_pubs sb_tasks] in A. unfold jm_contains in Jc. rewrite Jc in A. injection A as <- <-. split; [|reflexivity]. apply Q. reflexivity.
Qed.

Lemma sched_run a : forall p s st s1 L1, onsched a s st -> run s p = (s1, L1) -> undisturbed a L1 ->
  exists st', onsched a s1 st' /\ exists out, length out = length (looks a p) /\ forall ts, redials_st st (looks a p ++ ts) = out ++ redials_st st' ts.
Proof.
  induction p as [|ev p IH]; intros s st s1 L1 J R U; cbn [sb_run] in R.
  - injection R as <- <-. exists st. split; [exact J|]. exists []. split; [reflexivity|]. reflexivity.
  - destruct (act s ev) as [s2 o] eqn:A. destruct (run s2 p) as [s3 o3] eqn:R3. injection R as <- <-. apply und_app in U. destruct U as (U1 & U2).
    assert (X : (exists t, ev = YEntry a t) \/ forall t, ev <> YEntry a t).
    { destruct ev; try (right; intros t; discriminate). destruct (eq_dec a0 a) as [->|N]; [left; eauto|right; intros t; congruence]. }
    destruct X as [(t & ->)|Ny].
    + destruct (look_step _ _ _ _ _ _ J A) as (st2 & r & E & J2 & _). destruct (IH _ _ _ _ J2 R3 U2) as (st' & J3 & out & Ln & E2). exists st'. split; [exact J3|]. exists (r :: out).
      unfold looks. cbn [flat_map]. destruct (eq_dec a a); [|congruence]. cbn [app length]. split; [f_equal; exact Ln|]. intros ts. change (flat_map _ p) with (looks a p). rewrite E, E2. reflexivity.
    + assert (J2 : onsched a s2 st). { destruct (act_get a _ _ _ _ A) as (_ & K). specialize (K U1 Ny). destruct st as [[[w l] si]|]; cbn [onsched] in *; rewrite K; exact J. }
      destruct (IH _ _ _ _ J2 R3 U2) as (st' & J3 & out & Ln & E2). exists st'. split; [exact J3|]. exists out.
      assert (Z : looks a (ev :: p) = looks a p). { unfold looks. cbn [flat_map]. destruct ev; try reflexivity. destruct (eq_dec a0 a) as [->|]; [destruct (Ny now eq_refl)|reflexivity]. }
      rewrite Z. auto.
Qed.

Lemma fresh_sched a s : mget a (sb_pubs s) = Some fresh -> initial * 2 ^ 16 <= longest -> onsched a s (Some (initial, 15%nat, None)).
Proof. intros G O. cbn [onsched]. eexists. split; [exact G|]. cbn [bo_new bo_max bo_count bo_cur bo_timeout option_map]. split; [reflexivity|]. split; [reflexivity|]. split; [reflexivity|]. split; [reflexivity|]. change (N.of_nat 15 + 1) with 16. exact O. Qed.
End P.

(** ** The back-offs never overflow *)
Section O.
Variables (token : option bytes) (ingress initial : N) (D : decompressors).
Definition okst (st : pstate) : Prop :=
  match st with PActive _ => True | PInactive b => bo_max b = 16 /\ bo_count b < 16 /\ bo_cur b = initial * 2 ^ bo_count b end.
Definition okp (p : list (addr * pstate)) : Prop := Forall (fun e => okst (snd e)) p.
Lemma okp_set a st p : okst st -> okp p -> okp (mset a st p).
Proof using. intros H. induction p as [|[k v] p IH]; cbn [mset]; intros F; [repeat constructor; exact H|]. inversion F; subst. destruct (eq_dec a k); constructor; auto. apply IH. assumption. Qed.
Lemma okp_del a p : okp p -> okp (mdel a p).
Proof using. induction p as [|[k v] p IH]; cbn [mdel]; intros F; [constructor|]. inversion F; subst. destruct (eq_dec a k); [auto|constructor; auto]. apply IH. assumption. Qed.
Lemma okp_get a st p : okp p -> mget a p = Some st -> okst st.
Proof using. intros F G. apply mget_in in G. unfold okp in F. rewrite Forall_forall in F. exact (F _ G). Qed.
Lemma ok_fresh : okst (PInactive (bo_new initial MAX_RETRIES)).
Proof using. cbn [okst bo_new bo_max bo_count bo_cur]. split; [reflexivity|]. split; [lia|]. change (2 ^ 0) with 1. lia. Qed.
Lemma ok_release st s s' o : sb_release st s = (s', o) -> sb_pubs s' = sb_pubs s.
Proof using. unfold sb_release. destruct st as [[c|]|]; [destruct (mget c (sb_conns s))|..]; intros [= <- <-]; reflexivity. Qed.
Lemma ok_reset a s s' o : okp (sb_pubs s) -> sb_reset initial a s = (s', o) -> okp (sb_pubs s').
Proof using. unfold sb_reset. destruct (sb_release _ s) as [s1 o1] eqn:R. intros H [= <- <-]. cbn [sb_set_pubs sb_pubs]. rewrite (ok_release _ _ _ _ R). apply okp_set; [exact ok_fresh|exact H]. Qed.
Lemma ok_connect a s s' o : sb_connect a s = (s', o) -> sb_pubs s' = sb_pubs s.
Proof using. unfold sb_connect. destruct (jm_spawn a (sb_tasks s)) as [j []]; intros [= <- <-]; reflexivity. Qed.
Lemma ok_tell c : forall l s s' o, okp (sb_pubs s) -> sb_tell initial c l s = (s', o) -> okp (sb_pubs s').
Proof using.
  induction l as [|[a [cid|b]] l IH]; intros s s' o H; cbn [sb_tell]; [intros [= <- <-]; exact H| |apply IH; exact H].
  destruct (mget cid (sb_conns s)) as [x|]; [|apply IH; exact H]. destruct (sc_try c x) as [x' r]. set (s1 := sb_set_conns s (mset cid x' (sb_conns s))).
  destruct (match r with TClosed => sb_reset initial a s1 | _ => (s1, []) end) as [s2 o2] eqn:E2. destruct (sb_tell initial c l s2) as [s3 o3] eqn:E3. intros [= <- <-]. eapply IH; [|exact E3].
  destruct r; try (injection E2 as <- <-; exact H). eapply ok_reset; [|exact E2]. exact H.
Qed.
Lemma bo_poll_ok now b b' r : okst (PInactive b) -> initial * 2 ^ 16 <= longest -> bo_poll now b = (b', r) -> r <> BPanic /\ (r <> BEnd -> okst (PInactive b')).
Proof using.
  intros (M & C & W) O. unfold okst.
  assert (K : forall dl b0, bo_max b0 = 16 -> bo_count b0 < 16 -> bo_cur b0 = initial * 2 ^ bo_count b0 -> bo_armed now dl b0 = (b', r) ->
    r <> BPanic /\ (r <> BEnd -> bo_max b' = 16 /\ bo_count b' < 16 /\ bo_cur b' = initial * 2 ^ bo_count b')).
  { clear M C W. intros dl b0 M C W. unfold bo_armed. destruct (dl <=? now); [|intros [= <- <-]; split; [discriminate|auto]]. cbv zeta. change DURATION_MAX with longest.
    assert (L : bo_cur b0 * 2 <= longest).
    { rewrite W. assert (2 ^ (bo_count b0 + 1) <= 2 ^ 16) by (apply N.pow_le_mono_r; lia). rewrite N.pow_add_r in *. change (2 ^ 1) with 2 in *. nia. }
    destruct (N.ltb_spec longest (bo_cur b0 * 2)); [lia|]. unfold bo_reset. cbn [bo_count bo_max bo_cur bo_timeout]. destruct (N.leb_spec (bo_max b0) (bo_count b0 + 1)).
    - intros [= <- <-]. split; [discriminate|]. intros X. congruence.
    - intros [= <- <-]. split; [discriminate|]. intros _. cbn [bo_count bo_max bo_cur]. split; [exact M|]. split; [lia|]. rewrite N.pow_add_r, W. change (2 ^ 1) with 2. lia. }
  unfold bo_poll. destruct (bo_timeout b) as [dl|]; [apply K; assumption|]. cbv zeta. apply K; assumption.
Qed.
Lemma act_okp s ev s' o : initial * 2 ^ 16 <= longest -> okp (sb_pubs s) -> sb_act token ingress initial D s ev = (s', o) -> okp (sb_pubs s').
Proof using.
  intros O H. destruct ev as [cid e|b now| |k r order|f| |]; cbn [sb_act].
  - unfold sb_session. destruct (mget cid (sb_conns s)) as [x|]; [|intros [= <- <-]; exact H]. destruct (sc_alive x); [|intros [= <- <-]; exact H]. destruct (ss_iter cid e x) as [[x' o'] r]. intros [= <- <-]. exact H.
  - unfold sb_entry. destruct (mget b (sb_pubs s)) as [[c|bo]|] eqn:G; [|..|intros [= <- <-]; exact H].
    + destruct (mget c (sb_conns s)) as [x|]; [|intros [= <- <-]; exact H]. destruct (sc_in x) as [|m rest].
      * destruct (sc_alive x); [intros [= <- <-]; exact H|]. destruct (sb_reset initial b s) as [s1 o1] eqn:R. intros [= <- <-]. eapply ok_reset; eauto.
      * cbv zeta. destruct (try_decompress _ _ _) as [pl|]; [|intros [= <- <-]; exact H]. unfold sb_pass. destruct (sb_dropped _); [|destruct (_ <? _)]; intros [= <- <-]; exact H.
    + pose proof (okp_get _ _ _ H G) as Ob. destruct (bo_poll now bo) as [b' r] eqn:B. destruct (bo_poll_ok _ _ _ _ Ob O B) as (Np & Ok). destruct r.
      * cbv zeta. assert (H1 : okp (mset b (PInactive b') (sb_pubs s))) by (apply okp_set; [apply Ok; discriminate|exact H]). destruct (jm_contains b (sb_tasks s)); [intros [= <- <-]; exact H1|].
        destruct (sb_connect b _) as [s2 o2] eqn:C. intros [= <- <-]. rewrite (ok_connect _ _ _ _ C). exact H1.
      * intros [= <- <-]. apply okp_del. exact H.
      * intros [= <- <-]. apply okp_set; [apply Ok; discriminate|exact H].
      * congruence.
  - unfold sb_next_command. destruct (sb_cmdq s) as [|c q]; [intros [= <- <-]; exact H|]. destruct (sb_command initial c (sb_set_cmdq s q)) as [s1 o1] eqn:E. intros [= <- <-].
    destruct c as [t|t|b|b|]; cbn [sb_command] in E; cbv zeta in E.
    + destruct (smem t _); [injection E as <- <-; exact H|]. eapply ok_tell; [|exact E]. exact H.
    + destruct (smem t _); [|injection E as <- <-; exact H]. eapply ok_tell; [|exact E]. exact H.
    + destruct (mem b _); [injection E as <- <-; exact H|]. destruct (sb_connect b _) as [s2 o2] eqn:C. destruct (sb_reset initial b s2) as [s3 o3] eqn:R. injection E as <- <-. eapply ok_reset; [|exact R]. rewrite (ok_connect _ _ _ _ C). exact H.
    + cbn [sb_set_cmdq sb_pubs] in E. destruct (mget b (sb_pubs s)) as [st|]; [|injection E as <- <-; exact H]. destruct (sb_release (Some st) _) as [s2 o2] eqn:R. injection E as <- <-. cbn [sb_set_stats sb_set_pubs sb_pubs]. apply okp_del. rewrite (ok_release _ _ _ _ R). exact H.
    + injection E as <- <-. exact H.
  - unfold sb_join. destruct (nth_error _ k) as [b|]; [|intros [= <- <-]; exact H]. destruct r as [| |ok input]; try (intros [= <- <-]; exact H).
    destruct (auth_client token ok input) as [[[| | |] ?] ?]; try (intros [= <- <-]; exact H).
    destruct (sb_connected b order _) as [s2 o2] eqn:C. intros [= <- <-]. revert C. unfold sb_connected. cbv zeta. destruct (sb_greet _ _ _) as [x o0].
    destruct (mget b _) as [[c|]|]; intros [= <- <-]; try exact H; apply okp_set; try exact Logic.I; exact H.
  - unfold sb_call. destruct (sb_dropped s); [intros [= <- <-]; exact H|]. destruct (api_command f); [destruct (_ <? _)|]; intros [= <- <-]; exact H.
  - unfold sb_take. destruct (sb_out s) as [|[[[c d] t] p] q]; intros [= <- <-]; exact H.
  - unfold sb_drop. destruct (sb_dropped s); intros [= <- <-]; exact H.
Qed.
Lemma run_okp : initial * 2 ^ 16 <= longest -> forall evs s s' o, okp (sb_pubs s) -> sb_run token ingress initial D s evs = (s', o) -> okp (sb_pubs s').
Proof using.
  intros O. induction evs as [|ev evs IH]; intros s s' o H; cbn [sb_run]; [intros [= <- <-]; exact H|].
  destruct (sb_act token ingress initial D s ev) as [s1 o1] eqn:A. destruct (sb_run token ingress initial D s1 evs) as [s2 o2] eqn:R. intros [= <- <-]. eapply IH; [|exact R]. eapply act_okp; eauto.
Qed.
End O.

(*@prop The publisher is reset (after connect(), or because its connection has been given up), and nobody interferes afterwards.  Then, whatever else happens to the socket, each time the driver looks at
    the publisher, it does what the schedule says: nothing before the wait is over (the first wait is the initial back-off, each further one twice as long, and lasts from the last dial); then it dials,
    15 times; when the sixteenth wait is over, it gives up for good.  (It does not dial, though the schedule says so, while an attempt for this publisher is under way, or after one has panicked.) *)
Lemma C95_redial_schedule_pf :
  forall token ingress initial D a evs1 ev evs2 s0 s s1 s2 L0 o0 L2 t o,
  initial * 2 ^ 16 <= longest ->
  sb_run token ingress initial D sb_init evs1 = (s0, L0) -> sb_act token ingress initial D s0 ev = (s, o0) -> In (UReset a) o0 ->
  sb_run token ingress initial D s evs2 = (s1, L2) -> undisturbed a L2 ->
  sb_act token ingress initial D s1 (YEntry a t) = (s2, o) ->
  let log := L0 ++ o0 ++ L2 in
  match last (redials initial 15 None (looks a evs2 ++ [t])) RdNothing with
  | RdNothing => o = []
  | RdGiveUp => o = [UGaveUp a]
  | RdDial => o = [UConnect a] \/ o = [] /\ ((attempts_ended a log < attempts a log)%nat \/ In (UTaskPanic a) log)
  end.
Proof.
  intros token ingress initial D a evs1 ev evs2 s0 s s1 s2 L0 o0 L2 t o O R0 A0 Hr R2 U A. cbv zeta.
  pose proof (proj1 (act_get token ingress initial D a _ _ _ _ A0) Hr) as G.
  destruct (sched_run token ingress initial D a _ _ _ _ _ (fresh_sched initial _ _ G O) R2 U) as (st' & J & out & Ln & E).
  destruct (look_step token ingress initial D _ _ _ _ _ _ J A) as (st2 & r & E2 & _ & H). specialize (E [t]). cbn [redials_st] in E. rewrite (E2 []) in E.
  assert (Z : redials_st st2 [] = []) by (destruct st2 as [[[w l] si]|]; reflexivity). rewrite Z in E. rewrite E, last_last. destruct r; [exact H| |exact H].
  destruct (jm_contains a (sb_tasks s1)) eqn:Jc; [right; split; [exact H|]|left; exact H].
  assert (R : sb_run token ingress initial D sb_init (evs1 ++ ev :: evs2) = (s1, L0 ++ o0 ++ L2)) by (rewrite (SubDriverP.run_app token ingress initial D), R0; cbn [sb_run]; rewrite A0, R2; reflexivity).
  unfold jm_contains in Jc. apply smem_true in Jc. destruct (run_keys token ingress initial D _ _ _ R a Jc) as [Hi|]; [left|right; assumption].
  destruct (run_TI token ingress initial D _ _ _ R) as [_ T]. specialize (T a). apply (count_occ_In eq_dec) in Hi. lia.
Qed.

(*@prop Doubling the waits never overflows (which would be a panic of the driver), whatever happens, if sixteen doublings of the initial back-off fit a Duration. *)
Lemma C95_waits_never_overflow_pf :
  forall token ingress initial D evs s L a b now, initial * 2 ^ 16 <= longest -> sb_run token ingress initial D sb_init evs = (s, L) ->
  mget a (sb_pubs s) = Some (PInactive b) -> snd (bo_poll now b) <> BPanic.
Proof.
  intros token ingress initial D evs s L a b now O R G.
  assert (H : okp initial (sb_pubs s)) by (eapply run_okp; [exact O| |exact R]; constructor).
  pose proof (okp_get initial _ _ _ H G) as Ob. destruct (bo_poll now b) as [b' r] eqn:B. exact (proj1 (bo_poll_ok initial _ _ _ _ Ob O B)).
Qed.

(*@example connect() to a publisher that cannot be reached: with looks every 500 ns and an initial back-off of 1000 ns the dials come after 1000, 3000, 7000 ns; the last of a schedule with two dials is the giving up. *)
Lemma C95_example_pf :
  let a := sx_addr in let times := map (fun n => N.of_nat n * 500) (seq 0 17) in
  let s0 := fst (sx_run [YApi (ApConnect true (Some a))]) in let r := sb_act None 4 1000 sx_D s0 YCommand in
  let evs2 := YJoin 0 JFail [] :: map (YEntry a) (removelast times) in let q := sb_run None 4 1000 sx_D (fst r) evs2 in
  1000 * 2 ^ 16 <= longest /\ In (UReset a) (snd r) /\ snd q = [UConnectFailed a; UConnect a] /\ undisturbed a (snd q) /\
  map (fun k => last (redials 1000 15 None (firstn k times)) RdNothing) [2; 3; 4; 6; 7; 8; 14; 15; 16]%nat = [RdNothing; RdDial; RdNothing; RdNothing; RdDial; RdNothing; RdNothing; RdDial; RdNothing] /\
  redials 1000 2 None [0; 1000; 2000; 3000; 6999; 7000; 9000] = [RdNothing; RdDial; RdNothing; RdDial; RdNothing; RdGiveUp; RdNothing].
Proof.
  cbv zeta. split; [vm_compute; discriminate|]. split; [vm_compute; tauto|]. split; [vm_compute; reflexivity|]. split; [|split; vm_compute; reflexivity].
  match goal with |- undisturbed _ ?l => let v := eval vm_compute in l in replace l with v by (vm_compute; reflexivity) end. unfold undisturbed. cbn. intuition discriminate.
Qed.
