(** Subscriber: polls terminate; sleeping tasks have nothing ready. *)
From Coq Require Import ZArith ZifyBool ZifyNat ZifyN Permutation.
From Verif Require Import Model.Base Model.Map Model.WirePubSub Model.Compression Model.Stats Model.Framed Model.WireAuth
  Model.Handshake Model.Utf8 Model.Backoff Model.JoinMap Model.PubDriver Model.SubDriver Spec.ReqSpec Spec.SubSpec Proofs.BaseP Proofs.MapP Proofs.SubDriverP Proofs.SubDriverP2 Proofs.SubDriverP3 Proofs.SubDriverP4 Proofs.SubDriverP5 Proofs.SubDriverP6 Proofs.SubDriverP7.
Local Open Scope N_scope.

(** ** The session *)
Lemma eg_loop_len cid : forall eg ans e o p f, eg_loop cid eg ans = (e, o, p, f) -> (length e + (if p then 1 else 0) <= length eg)%nat.
Proof.
  induction eg as [|m eg IH]; intros ans e o p f; cbn [eg_loop]; [intros [= <- <- <- <-]; cbn; lia|].
  destruct ans as [|[| |] ans].
  - intros [= <- <- <- <-]. rewrite app_length. cbn. lia.
  - destruct (eg_loop cid eg ans) as [[[e1 o1] p1] f1] eqn:E. intros [= <- <- <- <-]. pose proof (IH _ _ _ _ _ E). cbn [length]. destruct p1; lia.
  - destruct (eg_loop cid eg ans) as [[[e1 o1] p1] f1] eqn:E. intros [= <- <- <- <-]. pose proof (IH _ _ _ _ _ E). cbn [length]. destruct p1; lia.
  - intros [= <- <- <- <-]. rewrite app_length. cbn. lia.
Qed.

Lemma iter_work cid e x x' o : ss_iter cid e x = (x', o, SCont) ->
  (length (sc_egress x') + 2 * length (sc_cmds x') + 1 <= length (sc_egress x) + 2 * length (sc_cmds x) + (if incoming (y_next e) then 1 else 0))%nat.
Proof.
  unfold ss_iter. set (fl := if sc_flush x && y_flush e then false else sc_flush x).
  assert (K : (let '(eg, o0, progress, f) := eg_loop cid (sc_egress (sc_set_egress x (sc_egress x) fl)) (y_sends e) in
     let x0 := sc_set_egress (sc_set_egress x (sc_egress x) fl) eg (f || fl) in
     if progress then (x0, o0, SCont) else match sc_cmds x0 with
       | c :: cs => match cmd_frame (y_now e) c with Some m => (sc_set_cmds (sc_set_egress x0 (eg ++ [m]) (f || fl)) cs, o0 ++ [UGot cid c], SCont)
                    | None => (sc_finish x0, o0 ++ [UGot cid c; UCrash cid], SCrash) end
       | [] => if sc_held x0 then (x0, o0, SPend) else (sc_finish x0, o0 ++ [UEnd cid], SDone) end) = (x', o, SCont) ->
     (length (sc_egress x') + 2 * length (sc_cmds x') + 1 <= length (sc_egress x) + 2 * length (sc_cmds x))%nat).
  { cbn [sc_set_egress sc_egress]. destruct (eg_loop cid (sc_egress x) (y_sends e)) as [[[eg o0] p] f] eqn:E. apply eg_loop_len in E. cbv zeta. destruct p.
    - intros [= <- <-]. cbn [sc_egress sc_cmds sc_set_egress]. lia.
    - cbn [sc_cmds sc_set_egress]. destruct (sc_cmds x) as [|c cs]; [destruct (sc_held _); discriminate|]. destruct (cmd_frame _ _); [|discriminate].
      intros [= <- <-]. cbn [sc_egress sc_cmds sc_set_egress sc_set_cmds length]. rewrite app_length. cbn [length]. lia. }
  destruct (y_next e) as [m| | |]; cbn [incoming].
  - unfold ss_incoming. destruct (negb _); [|destruct (_ <? _)]; intros [= <- <-]; cbn; lia.
  - intros [= <- <-]. cbn. lia.
  - intros H. apply K in H. lia.
  - intros H. apply K in H. lia.
Qed.

Lemma spoll_bound cid : forall es s s' o, match mget cid (sb_conns s) with Some x => sc_alive x | None => false end = true -> ss_poll cid es s = (s', o, None) ->
  (length es <= session_work cid s + length (filter (fun e => incoming (y_next e)) es))%nat.
Proof.
  induction es as [|e es IH]; intros s s' o A; cbn [ss_poll length]; [lia|].
  destruct (sb_session cid e s) as [[s1 o1] r1] eqn:E. unfold sb_session in E. destruct (mget cid (sb_conns s)) as [x|] eqn:G; [|discriminate]. rewrite A in E.
  destruct (ss_iter cid e x) as [[x' o'] r] eqn:It. injection E as <- <- <-. destruct r; try discriminate.
  destruct (ss_poll cid es _) as [[s2 o2] r2] eqn:P. intros [= <- <- ->]. pose proof (iter_work _ _ _ _ _ It) as W.
  assert (A' : sc_alive x' = true).
  { revert It. unfold ss_iter.
    set (fl := if sc_flush x && y_flush e then false else sc_flush x). clear -A. cbn [sc_set_egress sc_egress].
    destruct (y_next e) as [m| | |].
    - unfold ss_incoming. destruct (negb _); [|destruct (_ <? _)]; intros [= <- <-]; exact A.
    - intros [= <- <-]. exact A.
    - destruct (eg_loop _ _ _) as [[[eg o0] p] f]. cbv zeta. destruct p; [intros [= <- <-]; exact A|]. cbn [sc_cmds sc_set_egress]. destruct (sc_cmds x); [destruct (sc_held _); discriminate|].
      destruct (cmd_frame _ _); [|discriminate]. intros [= <- <-]. exact A.
    - destruct (eg_loop _ _ _) as [[[eg o0] p] f]. cbv zeta. destruct p; [intros [= <- <-]; exact A|]. cbn [sc_cmds sc_set_egress]. destruct (sc_cmds x); [destruct (sc_held _); discriminate|].
      destruct (cmd_frame _ _); [|discriminate]. intros [= <- <-]. exact A. }
  assert (Q : match mget cid (sb_conns (sb_set_conns s (mset cid x' (sb_conns s)))) with Some x => sc_alive x | None => false end = true) by (cbn [sb_set_conns sb_conns]; now rewrite mget_set_eq).
  apply (IH _ s2 o2) in Q; [|exact P]. revert Q. unfold session_work. cbn [sb_set_conns sb_conns]. rewrite mget_set_eq, G. cbn [filter].
  destruct (incoming (y_next e)); cbn [length]; lia.
Qed.

(** Pending: the last turn found no frame (or the end of the stream), no command, and the connection busy or nothing to write. *)
Lemma spoll_sleep cid : forall es s s' o, ss_poll cid es s = (s', o, Some SPend) -> exists before e rest x, es = before ++ e :: rest /\
  mget cid (sb_conns s') = Some x /\ (y_next e = PnPending \/ y_next e = PnEof) /\ sc_cmds x = [] /\ sc_held x = true /\
  (sc_egress x = [] \/ y_sends e = [] \/ hd_error (y_sends e) = Some SaBusy).
Proof.
  induction es as [|e es IH]; intros s s' o; cbn [ss_poll]; [discriminate|].
  destruct (sb_session cid e s) as [[s1 o1] r1] eqn:E. unfold sb_session in E. destruct (mget cid (sb_conns s)) as [x|] eqn:G; [|injection E as <- <- <-; discriminate].
  destruct (sc_alive x); [|injection E as <- <- <-; discriminate]. destruct (ss_iter cid e x) as [[x' o'] r] eqn:It. injection E as <- <- <-. destruct r; try discriminate.
  - destruct (ss_poll cid es _) as [[s2 o2] r2] eqn:P. intros [= <- <- ->]. destruct (IH _ _ _ P) as (b & e' & rest & y & -> & H). exists (e :: b), e', rest, y. split; [reflexivity|exact H].
  - intros [= <- <-]. exists [], e, es, x'. split; [reflexivity|]. cbn [sb_set_conns sb_conns]. rewrite mget_set_eq. split; [reflexivity|]. revert It. unfold ss_iter.
    set (fl := if sc_flush x && y_flush e then false else sc_flush x). cbn [sc_set_egress sc_egress].
    assert (K : forall eg o0 p f, eg_loop cid (sc_egress x) (y_sends e) = (eg, o0, p, f) -> p = false -> sc_egress x = [] /\ eg = [] \/ y_sends e = [] \/ hd_error (y_sends e) = Some SaBusy).
    { intros eg o0 p f. destruct (sc_egress x) as [|m l]; cbn [eg_loop]; [intros [= <- <- <- <-]; auto|]. destruct (y_sends e) as [|[| |] a]; auto.
      - destruct (eg_loop cid l a) as [[[? ?] ?] ?]. intros [= <- <- <- <-]. discriminate.
      - destruct (eg_loop cid l a) as [[[? ?] ?] ?]. intros [= <- <- <- <-]. discriminate. }
    destruct (y_next e) as [m| | |]; [destruct (ss_incoming _ _ _ _); discriminate|discriminate|..].
    all: destruct (eg_loop _ _ _) as [[[eg o0] p] f] eqn:Eg; cbv zeta; destruct p; [discriminate|]; cbn [sc_cmds sc_set_egress]; (destruct (sc_cmds x) as [|c cs] eqn:Ec; [|destruct (cmd_frame _ _); discriminate]);
      cbn [sc_held sc_set_egress]; (destruct (sc_held x) eqn:Eh; [|discriminate]); intros [= <- <-]; cbn [sc_cmds sc_held sc_egress sc_set_egress]; split; [auto|split; [auto|split; [auto|]]];
      (destruct (K _ _ _ _ eq_refl eq_refl) as [[_ ->]|[|]]; auto).
Qed.

(** ** Sums over an association list *)
Section Sum.
Context {V : Type}.
Definition wsum (f : V -> nat) (l : list (addr * V)) : nat := list_sum (map (fun e => f (snd e)) l).
Lemma wsum_ext f g l : (forall a v, mget a l = Some v -> f v = g v) -> NoDup (mkeys l) -> wsum f l = wsum g l.
Proof.
  induction l as [|[a v] l IH]; intros H Nd; [reflexivity|]. unfold wsum in *. cbn [map list_sum fold_right snd]. inversion Nd as [|? ? Hn Nd']; subst.
  change (fold_right Nat.add 0%nat (map (fun e => f (snd e)) l)) with (list_sum (map (fun e => f (snd e)) l)).
  change (fold_right Nat.add 0%nat (map (fun e => g (snd e)) l)) with (list_sum (map (fun e => g (snd e)) l)). rewrite IH; auto.
  - f_equal. apply (H a). cbn [mget]. destruct (eq_dec a a); congruence.
  - intros b w G. apply (H b). cbn [mget]. destruct (eq_dec b a) as [->|]; auto. exfalso. apply Hn. apply mget_keys. congruence.
Qed.
Lemma wsum_del f l a : NoDup (mkeys l) -> wsum f l = (wsum f (mdel a l) + match mget a l with Some v => f v | None => 0 end)%nat.
Proof.
  induction l as [|[b v] l IH]; intros Nd; [reflexivity|]. inversion Nd as [|? ? Hn Nd']; subst. specialize (IH Nd'). unfold wsum in *. cbn [map list_sum fold_right snd mget mdel].
  destruct (eq_dec a b) as [->|Ne].
  - rewrite length_del_none by (apply mget_not_keys; auto). unfold list_sum. lia.
  - cbn [map snd list_sum fold_right]. unfold list_sum in *. lia.
Qed.
Lemma wsum_set f l a v : NoDup (mkeys l) -> (wsum f (mset a v l) + match mget a l with Some v' => f v' | None => 0 end = wsum f l + f v)%nat.
Proof.
  induction l as [|[b w] l IH]; intros Nd; [unfold wsum; cbn; lia|]. inversion Nd as [|? ? Hn Nd']; subst. specialize (IH Nd'). unfold wsum in *. cbn [map list_sum fold_right snd mget mset].
  destruct (eq_dec a b) as [->|Ne]; cbn [map snd list_sum fold_right]; unfold list_sum in *; lia.
Qed.
End Sum.

Section P.
Variables (token : option bytes) (ingress initial : N) (D : decompressors).

(** Work of the publishers other than [a]. *)
Definition others (a : addr) (s : sb) : nat := wsum (pub_work s) (mdel a (sb_pubs s)).
Definition own (a : addr) (s : sb) : nat := match mget a (sb_pubs s) with Some st => pub_work s st | None => 0 end.
Lemma work_split a s : SI s -> wsum (pub_work s) (sb_pubs s) = (others a s + own a s)%nat.
Proof. intros H. unfold others, own. apply wsum_del, si_nd, H. Qed.

Lemma mdel_mset {V} (a : addr) (v : V) l : mdel a (mset a v l) = mdel a l.
Proof.
  induction l as [|[b w] l IH]; cbn [mset mdel]; [destruct (eq_dec a a); congruence|]. destruct (eq_dec a b) as [->|Ne]; cbn [mdel].
  - destruct (eq_dec b b); congruence.
  - destruct (eq_dec a b); congruence.
Qed.
Lemma mdel_mdel {V} (a : addr) (l : list (addr * V)) : mdel a (mdel a l) = mdel a l.
Proof. induction l as [|[b w] l IH]; cbn [mdel]; [reflexivity|]. destruct (eq_dec a b) as [->|Ne]; [exact IH|]. cbn [mdel]. destruct (eq_dec a b); congruence. Qed.

(** A step that concerns publisher [a] only: the pubs change at [a], and no connection of another publisher changes. *)
Lemma others_same a s s' : SI s -> mdel a (sb_pubs s') = mdel a (sb_pubs s) ->
  (forall b c, b <> a -> mget b (sb_pubs s) = Some (PActive c) -> mget c (sb_conns s') = mget c (sb_conns s)) -> others a s' = others a s.
Proof.
  intros H Ed C. unfold others. rewrite Ed. apply wsum_ext; [|apply nodup_del, si_nd, H].
  intros b st G. destruct (eq_dec b a) as [->|Ne]; [rewrite mget_del_eq in G; discriminate|]. rewrite mget_del_ne in G by auto.
  destruct st as [c|bo]; [|reflexivity]. unfold pub_work. now rewrite (C b c).
Qed.
Lemma other_conn a b c c' s : SI s -> mget a (sb_pubs s) = Some (PActive c) -> b <> a -> mget b (sb_pubs s) = Some (PActive c') -> c' <> c.
Proof. intros H Ga Ne Gb ->. destruct (si_act _ H _ _ Ga) as (x & Gx & Ax & _). destruct (si_act _ H _ _ Gb) as (y & Gy & Ay & _). congruence. Qed.

Definition work (s : sb) : nat := wsum (pub_work s) (sb_pubs s).

Lemma release_work a s s1 o : SI s -> sb_release (mget a (sb_pubs s)) s = (s1, o) ->
  sb_pubs s1 = sb_pubs s /\ sb_tasks s1 = sb_tasks s /\ sb_cmdq s1 = sb_cmdq s /\ sb_stats s1 = sb_stats s /\
  (forall b c, b <> a -> mget b (sb_pubs s) = Some (PActive c) -> mget c (sb_conns s1) = mget c (sb_conns s)).
Proof.
  intros H. unfold sb_release. destruct (mget a (sb_pubs s)) as [[c|bo]|] eqn:G; [|intros [= <- <-]; auto 6..].
  destruct (mget c (sb_conns s)) as [x|] eqn:Gx; [|intros [= <- <-]; auto 6]. intros [= <- <-]. cbn. do 4 (split; [reflexivity|]).
  intros b c' Ne Gb. rewrite mget_set_ne; [reflexivity|]. exact (other_conn _ _ _ _ _ H G Ne Gb).
Qed.
Lemma reset_work a s s' o : SI s -> sb_reset initial a s = (s', o) ->
  sb_tasks s' = sb_tasks s /\ sb_cmdq s' = sb_cmdq s /\ (work s' + own a s = work s + 32)%nat.
Proof.
  intros H. unfold sb_reset. destruct (sb_release (mget a (sb_pubs s)) s) as [s1 o1] eqn:R. intros E. pose proof (reset_step initial D a s s' o H) as St.
  unfold sb_reset in St. rewrite R in St. destruct (St E) as [H' _]. clear St. injection E as <- <-.
  destruct (release_work _ _ _ _ H R) as (Ep & Et & Eq & _ & Ec). cbn [sb_set_pubs sb_tasks sb_cmdq]. split; [exact Et|]. split; [exact Eq|].
  unfold work. rewrite (work_split a _ H'), (work_split a _ H).
  rewrite (others_same a s); [| |cbn [sb_set_pubs sb_pubs]; rewrite Ep, mdel_mset; reflexivity|exact Ec]; [|exact H].
  unfold own at 1. cbn [sb_set_pubs sb_pubs]. rewrite mget_set_eq. change (pub_work _ (PInactive (bo_new initial MAX_RETRIES))) with 32%nat. lia.
Qed.

Lemma try_work c x : sc_in (fst (sc_try c x)) = sc_in x /\ sc_alive (fst (sc_try c x)) = sc_alive x /\ (snd (sc_try c x) = TClosed -> sc_alive x = false).
Proof. unfold sc_try. destruct (sc_alive x) eqn:A; cbn [negb]; [|auto]. destruct (_ <? _); cbn; repeat split; auto; discriminate. Qed.

Lemma tell_work c : forall l s s' o, SI s -> NoDup (mkeys l) -> (forall a st, In (a, st) l -> mget a (sb_pubs s) = Some st) -> sb_tell initial c l s = (s', o) ->
  SI s' /\ sb_tasks s' = sb_tasks s /\ sb_cmdq s' = sb_cmdq s /\ (work s' <= work s)%nat.
Proof.
  induction l as [|[a [cid|b]] l IH]; intros s s' o H Nd Hl; cbn [sb_tell].
  - intros [= <- <-]. auto.
  - assert (Ga : mget a (sb_pubs s) = Some (PActive cid)) by (apply Hl; now left). inversion Nd as [|? ? Hn Nd']; subst.
    destruct (si_act _ H _ _ Ga) as (x & Gx & Ax & Hx). rewrite Gx. destruct (sc_try c x) as [x' r] eqn:Tr.
    pose proof (try_work c x) as (Ti & Ta & Tc). pose proof (try_addr D c x) as (Td & Th). rewrite Tr in Ti, Ta, Tc, Td, Th. cbn [fst snd] in *.
    set (s1 := sb_set_conns s (mset cid x' (sb_conns s))).
    assert (H1 : SI s1) by (eapply SI_conn; eauto).
    assert (W1 : forall st, pub_work s1 st = pub_work s st).
    { intros [k|bo]; [|reflexivity]. unfold pub_work, s1. cbn [sb_set_conns sb_conns]. rewrite mget_set. destruct (eq_dec k cid) as [->|]; [|reflexivity]. now rewrite Gx, Ti, Ta. }
    assert (Wk1 : work s1 = work s) by (unfold work; apply wsum_ext; [auto|apply si_nd, H]).
    destruct (match r with TClosed => sb_reset initial a s1 | _ => (s1, []) end) as [s2 o2] eqn:E2.
    assert (K : SI s2 /\ sb_tasks s2 = sb_tasks s /\ sb_cmdq s2 = sb_cmdq s /\ (work s2 <= work s)%nat /\ (forall b, b <> a -> mget b (sb_pubs s2) = mget b (sb_pubs s))).
    { destruct r; try (injection E2 as <- <-; rewrite Wk1; auto 6; fail). destruct (reset_step initial D a s1 s2 o2 H1 E2) as [H2 _]. destruct (reset_work _ _ _ _ H1 E2) as (A & B & C).
      split; [exact H2|]. split; [exact A|]. split; [exact B|]. split.
      - assert (O : (33 <= own a s1)%nat). { unfold own. change (sb_pubs s1) with (sb_pubs s). rewrite Ga. unfold pub_work, s1. cbn [sb_set_conns sb_conns]. rewrite mget_set_eq, Ta, (Tc eq_refl). lia. }
        lia.
      - intros b Ne. unfold sb_reset in E2. destruct (sb_release (mget a (sb_pubs s1)) s1) as [s3 o3] eqn:R. injection E2 as <- <-. cbn [sb_set_pubs sb_pubs].
        rewrite mget_set_ne by auto. destruct (release_work _ _ _ _ H1 R) as (-> & _). reflexivity. }
    destruct K as (H2 & A & B & C & Dk). destruct (sb_tell initial c l s2) as [s3 o3] eqn:E3. intros [= <- <-].
    assert (Hl2 : forall b st, In (b, st) l -> mget b (sb_pubs s2) = Some st).
    { intros b st Hi. rewrite Dk; [apply Hl; now right|]. intros ->. apply Hn. apply (in_map fst) in Hi. exact Hi. }
    destruct (IH _ _ _ H2 Nd' Hl2 E3) as (H3 & A3 & B3 & C3).
    split; [exact H3|]. split; [congruence|]. split; [congruence|]. lia.
  - inversion Nd; subst. intros E. eapply IH; eauto. intros a' st Hi. apply Hl. now right.
Qed.

Lemma in_mget {V} (l : list (addr * V)) a v : NoDup (mkeys l) -> In (a, v) l -> mget a l = Some v.
Proof.
  induction l as [|[b w] l IH]; intros Nd Hi; [destruct Hi|]. inversion Nd as [|? ? Hn Nd']; subst. cbn [mget]. destruct Hi as [[= -> ->]|Hi]; [destruct (eq_dec a a); congruence|].
  destruct (eq_dec a b) as [->|]; [exfalso; apply Hn, (in_map fst _ _ Hi)|auto].
Qed.

Definition tasks_len (s : sb) : nat := length (jm_tasks (sb_tasks s)).
Lemma connect_work a s s' o : sb_connect a s = (s', o) -> sb_pubs s' = sb_pubs s /\ sb_conns s' = sb_conns s /\ sb_cmdq s' = sb_cmdq s /\ (tasks_len s' <= tasks_len s + 1)%nat.
Proof.
  unfold sb_connect, jm_spawn, tasks_len. destruct (smem a _); intros [= <- <-]; cbn [sb_set_tasks sb_pubs sb_conns sb_cmdq sb_tasks jm_tasks]; repeat split; try lia. rewrite app_length. cbn. lia.
Qed.
Lemma work_same s s' : sb_pubs s' = sb_pubs s -> sb_conns s' = sb_conns s -> work s' = work s /\ forall a, own a s' = own a s.
Proof.
  intros Ep Ec. assert (K : forall st, pub_work s' st = pub_work s st) by (intros [c|b]; unfold pub_work; rewrite ?Ec; reflexivity).
  unfold work, own. rewrite Ep. split; [|intros a; destruct (mget a (sb_pubs s)); auto].
  unfold wsum. f_equal. apply map_ext. intros e. apply K.
Qed.

Lemma command_work c s s' o : SI s -> sb_command initial c s = (s', o) -> (work s' + tasks_len s' <= work s + tasks_len s + 33)%nat /\ sb_cmdq s' = sb_cmdq s.
Proof.
  intros H. destruct c; cbn [sb_command].
  - destruct (smem t (sb_topics s)); [intros [= <- <-]; split; [lia|reflexivity]|]. cbv zeta. intros E.
    destruct (tell_work (SSub t) (sb_pubs s) (sb_set_topics s (sins t (sb_topics s))) s' o
      (SI_topics _ _ H (nodup_sins t _ (si_top _ H))) (si_nd _ H) (fun a st Hi => in_mget _ _ _ (si_nd _ H) Hi) E) as (_ & A & B & C).
    unfold tasks_len. rewrite A. split; [|exact B]. destruct (work_same s (sb_set_topics s (sins t (sb_topics s))) eq_refl eq_refl). cbn [sb_set_topics sb_tasks]. lia.
  - destruct (smem t (sb_topics s)); [|intros [= <- <-]; split; [lia|reflexivity]]. cbv zeta. intros E.
    destruct (tell_work (SUnsub t) (sb_pubs s) (sb_set_topics s (sdel t (sb_topics s))) s' o
      (SI_topics _ _ H (nodup_sdel t _ (si_top _ H))) (si_nd _ H) (fun a st Hi => in_mget _ _ _ (si_nd _ H) Hi) E) as (_ & A & B & C).
    unfold tasks_len. rewrite A. split; [|exact B]. destruct (work_same s (sb_set_topics s (sdel t (sb_topics s))) eq_refl eq_refl). cbn [sb_set_topics sb_tasks]. lia.
  - destruct (mem a (sb_pubs s)) eqn:M; [intros [= <- <-]; split; [lia|reflexivity]|].
    destruct (sb_connect a s) as [s1 o1] eqn:E1. destruct (sb_reset initial a s1) as [s2 o2] eqn:E2. intros [= <- <-].
    destruct (connect_step D a s s1 o1 H E1) as [H1 _]. destruct (connect_work _ _ _ _ E1) as (Ep & Ec & Eq & Et). destruct (reset_work _ _ _ _ H1 E2) as (A & B & C).
    destruct (work_same _ _ Ep Ec) as [Wk _]. unfold tasks_len in *. rewrite A. split; [lia|congruence].
  - destruct (mget a (sb_pubs s)) as [st|] eqn:G; [|intros [= <- <-]; split; [lia|reflexivity]].
    destruct (sb_release (Some st) s) as [s1 o1] eqn:R. intros [= <- <-]. rewrite <- G in R. destruct (release_work _ _ _ _ H R) as (Ep & Et & Eq & Es & Ec).
    unfold tasks_len. cbn [sb_set_stats sb_set_pubs sb_tasks sb_cmdq]. rewrite Et, Eq. split; [|reflexivity].
    assert (X : (work (sb_set_stats (sb_set_pubs s1 (mdel a (sb_pubs s1))) (mdel a (sb_stats s1))) <= work s)%nat); [|lia].
    unfold work at 2. rewrite (work_split a _ H). unfold work. cbn [sb_set_stats sb_set_pubs sb_pubs]. rewrite Ep.
    assert (O : wsum (pub_work (sb_set_stats (sb_set_pubs s1 (mdel a (sb_pubs s))) (mdel a (sb_stats s1)))) (mdel a (sb_pubs s)) = others a s).
    { unfold others. apply wsum_ext; [|apply nodup_del, si_nd, H]. intros b st' Gb. destruct (eq_dec b a) as [->|Ne]; [rewrite mget_del_eq in Gb; discriminate|]. rewrite mget_del_ne in Gb by auto.
      destruct st' as [k|bo]; [|reflexivity]. unfold pub_work. cbn [sb_set_stats sb_set_pubs sb_conns]. now rewrite (Ec b k). }
    lia.
  - intros [= <- <-]. split; [lia|reflexivity].
Qed.

Lemma greet_work cid : forall ts x x' o, sb_greet cid ts x = (x', o) -> sc_in x' = sc_in x /\ sc_alive x' = sc_alive x.
Proof.
  induction ts as [|t ts IH]; intros x x' o; cbn [sb_greet]; [intros [= <- <-]; auto|]. pose proof (try_work (SSub t) x) as (A & B & _).
  destruct (sc_try (SSub t) x) as [x1 r]. cbn [fst] in *. destruct (sb_greet cid ts x1) as [x2 o2] eqn:E. intros [= <- <-]. destruct (IH _ _ _ E). split; congruence.
Qed.
Lemma connected_work a order s s' o : SI s -> sb_connected a order s = (s', o) -> (work s' <= work s)%nat /\ sb_tasks s' = sb_tasks s /\ sb_cmdq s' = sb_cmdq s.
Proof.
  intros H E. destruct (connected_step D a order s s' o H E) as [H' _]. revert E. unfold sb_connected. destruct (mget a (sb_pubs s)) as [[c|bo]|] eqn:G; [intros [= <- <-]; auto|..];
    destruct (sb_greet _ _ _) as [x ox] eqn:Gr; intros [= <- <-]; (split; [|auto]); destruct (greet_work _ _ _ _ _ Gr) as [Gi Gal]; cbn [sc_in sc_alive sc_new] in Gi, Gal;
    unfold work; rewrite (work_split a _ H'), (work_split a _ H); (rewrite (others_same a s); [|exact H|cbn [sb_pubs]; apply mdel_mset|]).
  1,3: unfold own at 1; cbn [sb_pubs]; rewrite mget_set_eq; unfold pub_work at 1; cbn [sb_conns]; rewrite mget_set_eq, Gi, Gal; cbn [length]; lia.
  all: intros b c Ne Gb; cbn [sb_conns]; apply mget_set_ne; destruct (si_act _ H _ _ Gb) as (y & Gy & _); pose proof (si_next _ H _ _ Gy); lia.
Qed.

Lemma join_tasks (m : joinmap addr) k p a : nth_error (jm_tasks m) k = Some a -> (length (jm_tasks (fst (jm_join k p m))) + 1 <= length (jm_tasks m))%nat.
Proof.
  unfold jm_join. intros G. rewrite G. assert (k < length (jm_tasks m))%nat by (apply nth_error_Some; congruence).
  destruct p; cbn [fst jm_tasks]; rewrite app_length, firstn_length, skipn_length; lia.
Qed.
Lemma join_work k r order s s' o b : SI s -> sb_join token k r order s = (s', o, b) -> (work s' + tasks_len s' + (if b then 1 else 0) <= work s + tasks_len s)%nat /\ sb_cmdq s' = sb_cmdq s.
Proof.
  intros H. unfold sb_join. destruct (nth_error (jm_tasks (sb_tasks s)) k) as [a|] eqn:G; [|intros [= <- <- <-]; split; [lia|reflexivity]].
  assert (K : forall p, (work (sb_set_tasks s (fst (jm_join k p (sb_tasks s)))) + tasks_len (sb_set_tasks s (fst (jm_join k p (sb_tasks s)))) + 1 <= work s + tasks_len s)%nat).
  { intros p. pose proof (join_tasks _ _ p _ G). destruct (work_same s (sb_set_tasks s (fst (jm_join k p (sb_tasks s)))) eq_refl eq_refl) as [-> _]. unfold tasks_len. cbn [sb_set_tasks sb_tasks]. lia. }
  pose proof (K true) as Kt. pose proof (K false) as Kf.
  destruct r; [intros [= <- <- <-]; split; [lia|reflexivity]..|].
  destruct (auth_client token send_ok input) as [[[| | |] w] rest]; try (intros [= <- <- <-]; split; [lia|reflexivity]).
  destruct (sb_connected _ _ _) as [s2 o2] eqn:E. intros [= <- <- <-]. destruct (connected_work _ _ _ _ _ (SI_tasks _ _ H) E) as (A & B & C).
  unfold tasks_len in *. rewrite B, C. split; [lia|reflexivity].
Qed.

Lemma pass_work cid a m p s s' o : sb_pass ingress cid a m p s = (s', o) -> sb_pubs s' = sb_pubs s /\ sb_conns s' = sb_conns s /\ sb_tasks s' = sb_tasks s /\ sb_cmdq s' = sb_cmdq s.
Proof. unfold sb_pass. destruct (sb_dropped s); [|destruct (_ <? _)]; intros [= <- <-]; auto. Qed.

Lemma bo_poll_work now b b' d : bo_poll now b = (b', BYield d) -> bo_count b' = bo_count b + 1 /\ bo_max b' = bo_max b /\ bo_count b + 1 < bo_max b.
Proof.
  assert (K : forall dl b0, bo_armed now dl b0 = (b', BYield d) -> bo_count b' = bo_count b0 + 1 /\ bo_max b' = bo_max b0 /\ bo_count b0 + 1 < bo_max b0).
  { intros dl b0. unfold bo_armed. destruct (_ <=? now); [|discriminate]. cbv zeta. destruct (DURATION_MAX <? _); [discriminate|]. cbn [bo_count]. destruct (N.leb_spec (bo_max b0) (bo_count b0 + 1)); [discriminate|].
    intros [= <- _]. cbn. auto. }
  unfold bo_poll. destruct (bo_timeout b); [apply K|]. cbv zeta. intros E. apply K in E. exact E.
Qed.
Lemma bo_poll_pend now b b' : bo_poll now b = (b', BPending) -> bo_count b' = bo_count b /\ bo_max b' = bo_max b.
Proof.
  assert (K : forall dl b0, bo_armed now dl b0 = (b', BPending) -> bo_count b' = bo_count b0 /\ bo_max b' = bo_max b0).
  { intros dl b0. unfold bo_armed. destruct (_ <=? now); [|intros [= <-]; auto]. cbv zeta. destruct (DURATION_MAX <? _); [discriminate|]. destruct (_ <=? _); discriminate. }
  unfold bo_poll. destruct (bo_timeout b); [apply K|]. cbv zeta. intros E. apply K in E. exact E.
Qed.

Lemma entry_work a now s s' o p : SI s -> sb_entry ingress initial D a now s = (s', o, p) -> (work s' + tasks_len s' + (if p then 1 else 0) <= work s + tasks_len s)%nat /\ sb_cmdq s' = sb_cmdq s.
Proof.
  intros H E. destruct (entry_step ingress initial D _ _ _ _ _ _ H E) as [H' _]. revert E. unfold sb_entry. destruct (mget a (sb_pubs s)) as [[cid|bo]|] eqn:G; [| |intros [= <- <- <-]; split; [lia|reflexivity]].
  - destruct (si_act _ H _ _ G) as (x & Gx & Ax & Hx). rewrite Gx. destruct (sc_in x) as [|m rest] eqn:Ei.
    + destruct (sc_alive x) eqn:Al; [intros [= <- <- <-]; split; [lia|reflexivity]|]. destruct (sb_reset initial a s) as [s1 o1] eqn:R. intros [= <- <- <-].
      destruct (reset_work _ _ _ _ H R) as (A & B & C). unfold tasks_len. rewrite A. split; [|exact B].
      assert (O : (33 <= own a s)%nat) by (unfold own; rewrite G; unfold pub_work; rewrite Gx, Al; lia). lia.
    + cbv zeta. set (s1 := sb_set_conns s (mset cid (sc_set_in x rest) (sb_conns s))).
      assert (H1 : SI s1) by (eapply SI_conn; eauto).
      assert (W1 : (work s1 + 1 <= work s)%nat).
      { unfold work. rewrite (work_split a _ H1), (work_split a _ H). rewrite (others_same a s); [|exact H|reflexivity|].
        - unfold own. change (sb_pubs s1) with (sb_pubs s). rewrite G. unfold pub_work, s1. cbn [sb_set_conns sb_conns]. rewrite mget_set_eq, Gx. cbn [sc_set_in sc_in sc_alive]. rewrite Ei. cbn [length]. lia.
        - intros b c Ne Gb. unfold s1. cbn [sb_set_conns sb_conns]. apply mget_set_ne. exact (other_conn _ _ _ _ _ H G Ne Gb). }
      destruct (try_decompress _ _ _) as [pl|].
      * destruct (sb_pass _ _ _ _ _ _) as [s2 o2] eqn:P. intros [= <- <- <-]. destruct (pass_work _ _ _ _ _ _ _ P) as (A & B & C & Dq). destruct (work_same _ _ A B) as [Wk _].
        unfold tasks_len. rewrite C. split; [|exact Dq]. change (sb_tasks s1) with (sb_tasks s). lia.
      * intros [= <- <- <-]. split; [|reflexivity]. change (tasks_len s1) with (tasks_len s). lia.
  - assert (OwnB : own a s = (2 * (N.to_nat (bo_max bo) - N.to_nat (bo_count bo)))%nat) by (unfold own; rewrite G; reflexivity).
    assert (KO : forall p', sb_pubs p' = mset a (PInactive (mkBackoff 0 0 0 None)) (sb_pubs s) -> True) by auto. clear KO.
    destruct (bo_poll now bo) as [b' [d| | |]] eqn:Bo.
    + destruct (bo_poll_work _ _ _ _ Bo) as (Bc & Bm & Bl). cbv zeta. set (s1 := sb_set_pubs s (mset a (PInactive b') (sb_pubs s))).
      assert (H1 : SI s1) by (apply (SI_setpub D); [exact H|intros c Hc; congruence]).
      assert (W1 : (work s1 + 2 <= work s)%nat).
      { unfold work. rewrite (work_split a _ H1), (work_split a _ H). rewrite (others_same a s); [|exact H|unfold s1; cbn [sb_set_pubs sb_pubs]; apply mdel_mset|auto].
        rewrite OwnB. unfold own, s1. cbn [sb_set_pubs sb_pubs]. rewrite mget_set_eq. cbn [pub_work]. lia. }
      destruct (jm_contains a (sb_tasks s)); [intros [= <- <- <-]; split; [|reflexivity]; change (tasks_len s1) with (tasks_len s); lia|].
      destruct (sb_connect a s1) as [s2 o2] eqn:C. intros [= <- <- <-]. destruct (connect_work _ _ _ _ C) as (Ep & Ec & Eq & Et). destruct (work_same _ _ Ep Ec) as [Wk _].
      split; [|exact Eq]. change (tasks_len s1) with (tasks_len s) in Et. lia.
    + intros [= <- <- <-]. split; [|reflexivity]. change (tasks_len (sb_set_pubs s (mdel a (sb_pubs s)))) with (tasks_len s).
      unfold work. rewrite (work_split a _ H'), (work_split a _ H). rewrite (others_same a s); [|exact H|cbn [sb_set_pubs sb_pubs]; apply mdel_mdel|auto]. unfold own at 1. cbn [sb_set_pubs sb_pubs]. rewrite mget_del_eq. lia.
    + intros [= <- <- <-]. split; [|reflexivity]. destruct (bo_poll_pend _ _ _ Bo) as (Bc & Bm). change (tasks_len (sb_set_pubs s (mset a (PInactive b') (sb_pubs s)))) with (tasks_len s).
      unfold work. rewrite (work_split a _ H'), (work_split a _ H). rewrite (others_same a s); [|exact H|cbn [sb_set_pubs sb_pubs]; apply mdel_mset|auto].
      rewrite OwnB. unfold own. cbn [sb_set_pubs sb_pubs]. rewrite mget_set_eq. cbn [pub_work]. rewrite Bc, Bm. lia.
    + intros [= <- <- <-]. split; [lia|reflexivity].
Qed.
Lemma entries_work now : forall l s s' o p, SI s -> sb_entries ingress initial D l now s = (s', o, p) -> (work s' + tasks_len s' + (if p then 1 else 0) <= work s + tasks_len s)%nat /\ sb_cmdq s' = sb_cmdq s /\ SI s'.
Proof.
  induction l as [|a l IH]; intros s s' o p H; cbn [sb_entries]; [intros [= <- <- <-]; split; [lia|auto]|].
  destruct (sb_entry ingress initial D a now s) as [[s1 o1] p1] eqn:E1. destruct (sb_entries ingress initial D l now s1) as [[s2 o2] p2] eqn:E2. intros [= <- <- <-].
  destruct (entry_step ingress initial D _ _ _ _ _ _ H E1) as [H1 _]. destruct (entry_work _ _ _ _ _ _ H E1) as [A1 B1]. destruct (IH _ _ _ _ H1 E2) as (A2 & B2 & H2).
  split; [|split; [congruence|exact H2]]. destruct p1, p2; cbn [orb]; lia.
Qed.

Lemma iter_work_d d s s' o : SI s -> sb_iter token ingress initial D d s = (s', o, true) -> (driver_work s' + 1 <= driver_work s)%nat /\ SI s'.
Proof.
  intros H. unfold sb_iter. destruct (sb_entries ingress initial D _ (yd_now d) s) as [[s1 o1] p] eqn:E. destruct (entries_work _ _ _ _ _ _ H E) as (A & B & H1).
  change (driver_work s) with (work s + tasks_len s + 34 * length (sb_cmdq s))%nat. change (driver_work s') with (work s' + tasks_len s' + 34 * length (sb_cmdq s'))%nat.
  destruct p; [intros [= <- <-]; split; [rewrite B; lia|exact H1]|].
  destruct (sb_next_command initial s1) as [[s2 o2] c] eqn:C. destruct (next_command_step initial D _ _ _ _ H1 C) as [H2 _]. unfold sb_next_command in C.
  destruct (sb_cmdq s1) as [|cm q] eqn:Q.
  - injection C as <- <- <-. destruct (yd_join d) as [[[k r] order]|]; [|discriminate]. destruct (sb_join token k r order s1) as [[s3 o3] j] eqn:J. intros [= <- <- ->].
    destruct (join_step token D _ _ _ _ _ _ _ H1 J) as [H3 _]. destruct (join_work _ _ _ _ _ _ _ H1 J) as [A3 B3]. split; [|exact H3]. rewrite B3, Q, <- B. cbn [length]. lia.
  - destruct (sb_command initial cm (sb_set_cmdq s1 q)) as [s4 o4] eqn:Cm. injection C as <- <- <-. intros [= <- <-].
    destruct (command_work _ _ _ _ (SI_cmdq _ _ H1) Cm) as [A4 B4]. split; [|exact H2]. destruct (work_same s1 (sb_set_cmdq s1 q) eq_refl eq_refl) as [Wk _].
    rewrite B4, <- B. cbn [sb_set_cmdq sb_cmdq length]. change (tasks_len (sb_set_cmdq s1 q)) with (tasks_len s1) in A4. lia.
Qed.
Lemma poll_bound : forall ds s s' o, SI s -> sb_poll token ingress initial D ds s = (s', o, false) -> (length ds <= driver_work s)%nat.
Proof.
  induction ds as [|d ds IH]; intros s s' o H; cbn [sb_poll length]; [lia|].
  destruct (sb_iter token ingress initial D d s) as [[s1 o1] c] eqn:E. destruct c; [|discriminate]. destruct (sb_poll token ingress initial D ds s1) as [[s2 o2] r] eqn:P. intros [= <- <- ->].
  destruct (iter_work_d _ _ _ _ H E) as [A H1]. pose proof (IH _ _ _ H1 P). lia.
Qed.

(** The driver sleeps only after a pass in which there was no command and nothing to join. *)
Lemma poll_sleep : forall ds s s' o, sb_poll token ingress initial D ds s = (s', o, true) -> exists before d rest, ds = before ++ d :: rest /\
  sb_cmdq s' = [] /\
  (forall k r order, yd_join d = Some (k, r, order) -> nth_error (jm_tasks (sb_tasks s')) k = None \/ (exists a, In (UTaskPanic a) o) \/
     (exists ok i, r = JConn ok i /\ fst (fst (auth_client token ok i)) = ClRunning)).
Proof.
  induction ds as [|d ds IH]; intros s s' o; cbn [sb_poll]; [discriminate|].
  destruct (sb_iter token ingress initial D d s) as [[s1 o1] c] eqn:E. destruct c.
  - destruct (sb_poll token ingress initial D ds s1) as [[s2 o2] r] eqn:P. intros [= <- <- ->]. destruct (IH _ _ _ P) as (b & d' & rest & -> & A & B). exists (d :: b), d', rest. split; [reflexivity|]. split; [exact A|].
    intros k r order Hj. destruct (B k r order Hj) as [|[[a Ha]|]]; auto. right; left. exists a. apply in_or_app. auto.
  - intros [= <- <-]. exists [], d, ds. split; [reflexivity|]. revert E. unfold sb_iter. destruct (sb_entries ingress initial D _ (yd_now d) s) as [[s2 o2] p]. destruct p; [discriminate|].
    destruct (sb_next_command initial s2) as [[s3 o3] c] eqn:C. destruct c; [discriminate|].
    assert (Q : sb_cmdq s3 = []). { unfold sb_next_command in C. destruct (sb_cmdq s2) eqn:Q; [injection C as <- <-; exact Q|]. destruct (sb_command _ _ _); discriminate. }
    destruct (yd_join d) as [[[k r] order]|]; [|intros [= <- <-]; split; [exact Q|intros; discriminate]].
    destruct (sb_join token k r order s3) as [[s4 o4] j] eqn:J. intros [= <- <- ->]. revert J. unfold sb_join. destruct (nth_error (jm_tasks (sb_tasks s3)) k) as [a|] eqn:G.
    + destruct r; [discriminate|intros [= <- <-]; split; [exact Q|]; intros; right; left; exists a; rewrite !in_app_iff; right; right; now left|].
      destruct (auth_client token send_ok input) as [[[| | |] w] rest] eqn:Au; try discriminate.
      * destruct (sb_connected _ _ _); discriminate.
      * intros [= <- <-]. split; [exact Q|]. intros; right; left; exists a; rewrite !in_app_iff; right; right; now left.
      * intros [= <- <-]. split; [exact Q|]. intros k' r' order' [= <- <- <-]. right; right. exists send_ok, input. split; [reflexivity|]. now rewrite Au.
    + intros [= <- <-]. split; [exact Q|]. intros k' r' order' [= <- <- <-]. auto.
Qed.
End P.
