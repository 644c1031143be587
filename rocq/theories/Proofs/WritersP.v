(** The write halves of the request and reply sockets' connections. *)
From Coq Require Import ZArith ZifyBool ZifyNat ZifyN.
From Verif Require Import Model.Base Model.Map Model.Framed Model.FramedWrite Model.WireReqRep Model.WirePubSub Model.Compression
  Model.Backoff Model.Trie Model.Utf8 Model.ReqDriver Model.RepDriver Model.PubDriver Model.SubDriver Model.Writers
  Spec.WriteSpec Spec.Stream Spec.ReqSpec Proofs.BaseP Proofs.FramedP Proofs.FramedWriteP.
From Verif Require Proofs.ReqDriverP.

(** Without write errors a poll never fails. *)
Lemma flush_no_error ans : forall w w' r rest, (forall x, In x ans -> ~ write_error x) -> fw_flush w ans = (w', r, rest) -> r <> WFail.
Proof.
  induction ans as [|a ans IH]; intros w w' r rest NE; cbn [fw_flush]; destruct (fw_buf w) as [|x b].
  - intros H; inversion H; discriminate.
  - intros H; inversion H; discriminate.
  - pose proof (NE a (or_introl eq_refl)) as N. destruct a; intros H; inversion H; try discriminate. exfalso; apply N; left; reflexivity.
  - pose proof (NE a (or_introl eq_refl)) as N. destruct a as [[|n]| |]; try (intros H; inversion H; discriminate).
    + exfalso; apply N; right; reflexivity.
    + apply IH. intros y I. apply NE. right; exact I.
    + exfalso; apply N; left; reflexivity.
Qed.
Lemma ready_no_error bd ans w w' r rest : (forall x, In x ans -> ~ write_error x) -> fw_ready bd w ans = (w', r, rest) -> r <> WFail.
Proof.
  intros NE. unfold fw_ready. destruct (bd <=? blen (fw_buf w)); [apply flush_no_error; exact NE|]. intros H; inversion H; discriminate.
Qed.

(** ** Request socket *)
Section Req.
Variables (o : ropts) (co : option compressor) (D : decompressors) (bd : N).

Definition loud (x : out) : bool := match x with Connected | Handed _ _ => true | _ => false end.
Definition quiet (l : list out) : Prop := forall x, In x l -> loud x = false.
Lemma quiet_on l : forall acc, quiet l -> on_connection acc l = acc.
Proof using.
  induction l as [|x l IH]; intros acc Q; [reflexivity|]. assert (Q' : quiet l) by (intros y I; apply Q; right; exact I).
  pose proof (Q x (or_introl eq_refl)). destruct x; try discriminate; cbn [on_connection]; apply IH, Q'.
Qed.
Lemma on_app l1 : forall acc l2, on_connection acc (l1 ++ l2) = on_connection (on_connection acc l1) l2.
Proof using. induction l1 as [|x l IH]; intros acc l2; [reflexivity|]. destruct x as [| |m []| | | |]; cbn [app on_connection]; apply IH. Qed.
Lemma quiet_app a b : quiet a -> quiet b -> quiet (a ++ b).
Proof using. intros A B x I. apply in_app_or in I as [I|I]; auto. Qed.
Lemma quiet_map {A} (f : A -> N) (r : A -> outcome) l : quiet (map (fun x => Resolve (f x) (r x)) l).
Proof using. intros x I. apply in_map_iff in I as (y & <- & _). reflexivity. Qed.
Lemma quiet_nil : quiet []. Proof using. intros x []. Qed.

Lemma finish_q s : quiet (snd (rd_finish s)).
Proof using. unfold rd_finish. cbn [snd]. apply quiet_app; apply quiet_map. Qed.
Lemma timeouts_q ids : forall p, quiet (snd (remove_timed_out ids p)).
Proof using.
  induction ids as [|i ids IH]; intros p; cbn [remove_timed_out]; [apply quiet_nil|]. destruct (mget i p) as [[t c]|]; [|apply IH].
  specialize (IH (mdel i p)). destruct (remove_timed_out ids (mdel i p)) as [p' os]. cbn [snd] in *. intros x [<-|I]; [reflexivity|apply IH, I].
Qed.
Lemma ticks_q n now : forall s, quiet (snd (rd_ticks o n now s)) /\
  rd_egress (fst (rd_ticks o n now s)) = rd_egress s /\ rd_flush (fst (rd_ticks o n now s)) = rd_flush s /\ rd_conn (fst (rd_ticks o n now s)) = rd_conn s
  /\ rd_cmds (fst (rd_ticks o n now s)) = rd_cmds s /\ rd_dropped (fst (rd_ticks o n now s)) = rd_dropped s.
Proof using.
  induction n as [|n IH]; intros s; cbn [rd_ticks]; [split; [apply quiet_nil|auto]|].
  unfold rd_check_timeouts. pose proof (timeouts_q (timed_out_ids o now (rd_pending s)) (rd_pending s)) as Q.
  destruct (remove_timed_out _ (rd_pending s)) as [p' os]. cbn [snd] in Q.
  match goal with |- context [rd_ticks o n now ?z] => specialize (IH z); destruct (rd_ticks o n now z) as [s2 o2] end. cbn [fst snd] in *.
  cbn [rd_egress rd_flush rd_conn rd_cmds rd_dropped] in IH. destruct IH as (Q2 & IH). split; [|exact IH]. apply quiet_app; [|exact Q2]. intros x [<-|I]; [reflexivity|apply Q, I].
Qed.
Lemma message_q now s m : quiet (snd (rd_on_message D now s m)) /\ rd_flush (fst (rd_on_message D now s m)) = rd_flush s.
Proof using.
  unfold rd_on_message. destruct (mget (rr_id m) (rd_pending s)) as [[st c]|]; [|split; [apply quiet_nil|reflexivity]].
  destruct (try_decompress D (rr_ctype m) (rr_payload m)); cbn [fst snd rd_flush]; (split; [|reflexivity]); intros x [<-|[]]; reflexivity.
Qed.
Lemma command_q now s rest c p : quiet (snd (rd_on_command o co now s rest c p)) /\ rd_flush (fst (rd_on_command o co now s rest c p)) = rd_flush s.
Proof using.
  unfold rd_on_command. cbn [fst snd rd_flush]. split; [|reflexivity]. intros x [<-|I]; [reflexivity|]. destruct (mget _ (rd_pending s)) as [[t c']|]; [|contradiction].
  destruct I as [<-|[]]; reflexivity.
Qed.

Definition connects (e : env) (s : rd) : bool := rd_task s && match e_task e with Some true => true | _ => false end.
Definition writes (e : env) (s : rd) : bool := (is_active s || connects e s) && match e_next e with NxPending => true | _ => false end.
Definition sends (e : env) (s : rd) : list rr_msg :=
  match (if writes e s && e_ready e then rd_egress s else []) with m :: _ => [m] | [] => [] end.

(** What an iteration of the driver does to its connection. *)
Lemma iter_sends e s s' os c : rd_iter o co D e s = (s', os, c) -> e_send e = true ->
  (forall acc, on_connection acc os = (if connects e s then [] else acc) ++ sends e s) /\
  rd_flush s' = (match sends e s with [] => rd_flush (rd_do_flush o e s) | _ => true end) /\
  (c = CPending -> sends e s = [] /\ is_active s' = (is_active s || connects e s)).
Proof using.
  intros H Se. unfold rd_iter in H.
  assert (DF : rd_task (rd_do_flush o e s) = rd_task s /\ rd_conn (rd_do_flush o e s) = rd_conn s /\ rd_egress (rd_do_flush o e s) = rd_egress s).
  { unfold rd_do_flush. destruct (rd_flush s); [|auto]. destruct (match ro_flush_interval o with Some _ => _ | None => _ end); [|auto].
    destruct (rd_conn s) eqn:CC; [|auto]. destruct (e_flush_ok e); cbn [set_flush rd_task rd_conn rd_egress]; auto. }
  destruct DF as (D1 & D2 & D3).
  destruct (rd_do_task e (rd_do_flush o e s)) as [s2 o2] eqn:T.
  assert (T2 : (forall acc, on_connection acc o2 = if connects e s then [] else acc) /\ rd_egress s2 = rd_egress s /\
               rd_flush s2 = rd_flush (rd_do_flush o e s) /\ is_active s2 = is_active s || connects e s).
  { unfold rd_do_task in T. rewrite D1 in T. unfold connects, is_active. destruct (rd_task s).
    - destruct (e_task e) as [[]|]; inversion T; subst; cbn [set_conn rd_egress rd_flush rd_conn on_connection]; rewrite ?D2, ?D3; (split; [intros acc; reflexivity|]); (split; [reflexivity|]); (split; [reflexivity|]); rewrite ?D2; destruct (rd_conn s); reflexivity.
    - inversion T; subst. rewrite D2. repeat split; auto. destruct (rd_conn s); reflexivity. }
  destruct T2 as (T2 & T3 & T4 & T5). clear T.
  assert (W : writes e s = is_active s2 && match e_next e with NxPending => true | _ => false end) by (unfold writes; rewrite T5; reflexivity).
  unfold is_active in W. unfold sends. rewrite W. destruct (rd_conn s2) as [|b] eqn:C2.
  - (* active *)
    unfold rd_do_active in H. destruct (e_next e) as [m| | |] eqn:Nx; cbn [andb] in *.
    + destruct (message_q (e_now e) s2 m) as [Q F]. destruct (rd_on_message D (e_now e) s2 m) as [s3 o3]. cbn [fst snd] in *. inversion H; subst.
      split; [|split; [congruence|discriminate]]. intros acc. rewrite on_app, T2, quiet_on by exact Q. rewrite app_nil_r. reflexivity.
    + inversion H; subst. split; [|split; [cbn; congruence|discriminate]]. intros acc. rewrite !app_nil_r, T2. reflexivity.
    + pose proof (finish_q s2) as Q. destruct (rd_finish s2) as [s3 o3] eqn:Fi. cbn [fst snd] in *. inversion H; subst.
      split; [|split; [unfold rd_finish in Fi; inversion Fi; subst; cbn; congruence|discriminate]]. intros acc. rewrite on_app, T2, quiet_on by exact Q. rewrite app_nil_r. reflexivity.
    + rewrite <- T3. destruct (if e_ready e then rd_egress s2 else []) as [|m q].
      * destruct (ticks_q (e_ticks e) (e_now e) s2) as (Q1 & G1 & G2 & G3 & G4 & G5). destruct (rd_ticks o (e_ticks e) (e_now e) s2) as [s3 o3]. cbn [fst snd] in *.
        destruct (rd_do_command o co e s3) as [[s4 o4] c4] eqn:Cm. inversion H; subst.
        assert (X : quiet o4 /\ rd_flush s' = rd_flush s3 /\ rd_conn s' = rd_conn s3).
        { unfold rd_do_command in Cm. destruct (e_recv e).
          - destruct (rd_cmds s3) as [|[c0 p] rest].
            + destruct (rd_dropped s3).
              * destruct (e_close e); [|inversion Cm; subst; split; [apply quiet_nil|split; reflexivity]]. pose proof (finish_q s3) as Q. unfold rd_finish in *. cbn [snd] in *. inversion Cm; subst. split; [exact Q|split; reflexivity].
              * inversion Cm; subst; split; [apply quiet_nil|split; reflexivity].
            + destruct (command_q (e_now e) s3 rest c0 p) as [Q F]. destruct (rd_on_command o co (e_now e) s3 rest c0 p) as [s5 o5] eqn:Oc. cbn [fst snd] in *. inversion Cm; subst. split; [exact Q|]. split; [exact F|]. unfold rd_on_command in Oc. inversion Oc; subst. reflexivity.
          - inversion Cm; subst; split; [apply quiet_nil|split; reflexivity]. }
        destruct X as (Q2 & F2 & F3). split; [|split; [congruence|intros _; split; [reflexivity|rewrite <- T5; unfold is_active; rewrite F3, G3; reflexivity]]].
        intros acc. rewrite on_app, T2, quiet_on by (apply quiet_app; assumption). rewrite app_nil_r. reflexivity.
      * rewrite Se in H. inversion H; subst. split; [|split; [reflexivity|discriminate]]. intros acc. rewrite on_app, T2. cbn [on_connection]. reflexivity.
  - (* inactive *)
    cbn [andb]. destruct (rd_do_inactive e b s2) as [[s3 o3] c3] eqn:I. inversion H; subst.
    assert (X : quiet o3 /\ rd_flush s' = rd_flush s2 /\ (is_active s' = false)).
    { unfold rd_do_inactive in I. destruct (bo_poll (e_now e) b) as [b' []].
      - destruct (rd_task s2); inversion I; subst; (split; [|split; reflexivity]); [apply quiet_nil|]. intros x [<-|[]]; reflexivity.
      - pose proof (finish_q (set_conn s2 (rd_task s2) (RInactive b'))) as Q. unfold rd_finish in *. cbn [snd] in *. inversion I; subst. split; [exact Q|split; [reflexivity|unfold is_active; cbn; rewrite ?C2; reflexivity]].
      - inversion I; subst. split; [apply quiet_nil|split; reflexivity].
      - pose proof (finish_q s2) as Q. unfold rd_finish in *. cbn [snd] in *. inversion I; subst. split; [exact Q|split; [reflexivity|unfold is_active; cbn; rewrite ?C2; reflexivity]]. }
    destruct X as (Q & F & A). split; [|split; [congruence|intros _; split; [reflexivity|rewrite A, <- T5; unfold is_active; rewrite C2; reflexivity]]]. intros acc. rewrite on_app, T2, quiet_on by exact Q. rewrite app_nil_r. reflexivity.
Qed.

Definition encs (l : list rr_msg) : bytes := concat (map rr_encode l).
Lemma encs_app a b : encs (a ++ b) = encs a ++ encs b.
Proof using. unfold encs. rewrite map_app, concat_app. reflexivity. Qed.

Lemma on_in m os : forall acc, In m (on_connection acc os) -> In m acc \/ In (Handed m true) os.
Proof using.
  induction os as [|x os IH]; intros acc J; [left; exact J|].
  destruct x as [| |m' []| | | |]; cbn [on_connection] in J; apply IH in J; destruct J as [J|J]; try (right; right; exact J); try (left; exact J); try contradiction.
  apply in_app_or in J. destruct J as [J|[<-|[]]]; [left; exact J|right; left; reflexivity].
Qed.
Definition computed (e e' : env) : Prop := exists fl rdy cl, e' = with_answers e fl rdy cl.
Definition covered (s : rd) (w : fw) : Prop := fw_buf w = [] \/ rd_flush s = true.

Lemma rw_iter_spec e a s w s' w' os c : rw_iter o co D bd e a s w = (s', w', os, c) ->
  exists e', computed e e' /\ rd_iter o co D e' s = (s', os, c) /\
  (forall acc, total w = encs acc -> total w' = encs (on_connection acc os)) /\
  (covered s w -> covered s' w') /\
  (c = CPending -> is_active s' = true -> covered s w ->
     fw_buf w' = [] \/ (ro_flush_interval o <> None /\ e_flush_tick e = false) \/ snd (fst (fw_flush w (wa_flush a))) <> WReady) /\
  (forall big, no_write_error a -> (forall m, In (Handed m true) os -> blen (rr_encode m) <= big) ->
     blen (fw_buf w) <= (bd - 1) + big -> blen (fw_buf w') <= (bd - 1) + big).
Proof using.
  unfold rw_iter. set (tick := match ro_flush_interval o with Some _ => e_flush_tick e | None => true end).
  destruct (if rd_flush s && tick && is_active s then fst (fw_flush w (wa_flush a)) else (w, WPending)) as [w1 r1] eqn:E1.
  change (rd_task s && match e_task e with Some true => true | _ => false end) with (connects e s).
  set (w2 := if connects e s then fw_new else w1).
  change ((is_active s || connects e s) && match e_next e with NxPending => true | _ => false end) with (writes e s).
  destruct (if writes e s then fst (fw_ready bd w2 (wa_ready a)) else (w2, WPending)) as [w3 r3] eqn:E3.
  set (eg := if writes e s && is_ready r3 then rd_egress s else []).
  set (w4 := match eg with [] => w3 | m :: _ => fw_send rr_encode m w3 end).
  set (cl := writes e s && match eg with [] => true | _ => false end && e_recv e && match rd_cmds s with [] => true | _ => false end && rd_dropped s).
  destruct (if cl then fst (fw_close w4 (wa_close a)) else (w4, WPending)) as [w5 r5] eqn:E5.
  set (e' := with_answers e (is_ok r1) (is_ready r3) (is_ready r5)).
  destruct (rd_iter o co D e' s) as [[s0 os0] c0] eqn:It. intros H; inversion H; subst s0 w5 os0 c0; clear H.
  exists e'. split; [eexists _, _, _; reflexivity|]. split; [exact It|].
  destruct (iter_sends e' s s' os c It eq_refl) as (On & Fl & Pe).
  change (connects e' s) with (connects e s) in *.
  assert (SE : sends e' s = match eg with [] => [] | m :: _ => [m] end).
  { unfold sends, eg. change (writes e' s) with (writes e s). change (e_ready e') with (is_ready r3). reflexivity. }
  rewrite SE in *. clear SE.
  (* the pieces *)
  assert (P1 : total w1 = total w /\ (is_ok r1 = true -> fw_buf w1 = []) /\ (length (fw_buf w1) <= length (fw_buf w))%nat).
  { destruct (rd_flush s && tick && is_active s).
    - destruct (fw_flush w (wa_flush a)) as [[wx rx] ax] eqn:F. cbn [fst] in E1. inversion E1; subst. apply flush_total in F as (T & K & _ & L).
      split; [exact T|]. split; [|exact L]. destruct r1; try discriminate. auto.
    - inversion E1; subst. split; [reflexivity|]. split; [discriminate|auto]. }
  assert (P3 : total w3 = total w2 /\ (length (fw_buf w3) <= length (fw_buf w2))%nat /\ (writes e s = true -> r3 = WReady -> fw_buf w3 = [] \/ blen (fw_buf w3) < bd)
               /\ (no_write_error a -> r3 <> WFail)).
  { destruct (writes e s).
    - destruct (fw_ready bd w2 (wa_ready a)) as [[wx rx] ax] eqn:F. cbn [fst] in E3. inversion E3; subst. pose proof F as G. apply ready_total in F as (T & _ & L & K).
      split; [exact T|]. split; [exact L|]. split; [intros _; exact K|]. intros NE. eapply ready_no_error; [|exact G]. intros x I. apply NE. unfold answers. apply in_or_app. right. apply in_or_app. left. exact I.
    - inversion E3; subst. split; [reflexivity|]. split; [auto|]. split; [discriminate|]. discriminate. }
  assert (P5 : total w' = total w4 /\ (length (fw_buf w') <= length (fw_buf w4))%nat).
  { destruct cl.
    - destruct (fw_close w4 (wa_close a)) as [[wx rx] ax] eqn:F. cbn [fst] in E5. inversion E5; subst. apply close_total in F as (T & _ & _ & L). auto.
    - inversion E5; subst. auto. }
  destruct P1 as (T1 & F1 & L1), P3 as (T3 & L3 & B3 & N3), P5 as (T5 & L5).
  assert (T2 : forall acc, total w = encs acc -> total w2 = encs (if connects e s then [] else acc)).
  { intros acc H. unfold w2. destruct (connects e s); [reflexivity|]. rewrite T1. exact H. }
  assert (FD : rd_flush (rd_do_flush o e' s) = (rd_flush s && negb (tick && is_active s && is_ok r1))).
  { unfold rd_do_flush. change (e_flush_tick e') with (e_flush_tick e). change (e_flush_ok e') with (is_ok r1). fold tick. unfold is_active.
    destruct (rd_flush s) eqn:RF; [|rewrite RF; reflexivity]. destruct tick; [|rewrite RF; reflexivity]. destruct (rd_conn s); [|rewrite RF; reflexivity].
    destruct (is_ok r1); cbn [andb negb]; [reflexivity|exact RF]. }
  (* buffer empty before sending? *)
  assert (EM : covered s w -> fw_buf w3 = [] \/ rd_flush (rd_do_flush o e' s) = true).
  { intros CV. rewrite FD. assert (X : fw_buf w1 = [] \/ rd_flush s && negb (tick && is_active s && is_ok r1) = true).
    { destruct CV as [CV|CV]; [left; rewrite CV in L1; destruct (fw_buf w1); [reflexivity|cbn in L1; lia]|].
      rewrite CV in *. cbn [andb] in *. destruct (tick && is_active s) eqn:TA; [|right; reflexivity]. cbn [andb] in *. destruct (is_ok r1) eqn:OK; [left; auto|right; reflexivity]. }
    destruct X as [X|X]; [|right; exact X]. left. assert (Y : fw_buf w2 = []) by (unfold w2; destruct (connects e s); [reflexivity|exact X]).
    rewrite Y in L3. destruct (fw_buf w3); [reflexivity|cbn in L3; lia]. }
  split; [|split; [|split]].
  - intros acc H. rewrite T5, On, encs_app. specialize (T2 acc H). rewrite <- T3 in T2. unfold w4. destruct eg as [|m q].
    + cbn [encs map concat]. rewrite app_nil_r. exact T2.
    + unfold total, fw_send in *. cbn [fw_buf fw_out]. rewrite app_assoc, T2. unfold encs at 3. cbn [map concat]. rewrite app_nil_r. reflexivity.
  - intros CV. unfold covered. rewrite Fl. unfold w4 in L5. destruct eg as [|m q]; [|right; reflexivity].
    destruct (EM CV) as [X|X]; [left|right; exact X]. rewrite X in L5. destruct (fw_buf w'); [reflexivity|cbn in L5; lia].
  - intros Pc Ac CV. destruct (Pe Pc) as [Se Ac']. assert (E4 : w4 = w3) by (unfold w4; destruct eg; [reflexivity|discriminate]). rewrite E4 in *.
    assert (Z : fw_buf w2 = [] -> fw_buf w' = []).
    { intros X. rewrite X in L3. destruct (fw_buf w3); [|cbn in L3; lia]. destruct (fw_buf w'); [reflexivity|cbn in L5; lia]. }
    unfold w2 in Z. destruct (connects e s) eqn:CN; [left; apply Z; reflexivity|]. rewrite Ac', orb_false_r in Ac. rewrite Ac in *.
    destruct CV as [CV|CV]; [left; apply Z; rewrite CV in L1; destruct (fw_buf w1); [reflexivity|cbn in L1; lia]|]. rewrite CV in *.
    unfold tick in *. clear tick. destruct (ro_flush_interval o) as [i|] eqn:RI.
    + destruct (e_flush_tick e) eqn:ET; [|right; left; split; [discriminate|reflexivity]]. cbn [andb] in *. destruct r1.
      * left. auto.
      * right; right. destruct (fw_flush w (wa_flush a)) as [[wx rx] ax]. cbn [fst snd] in *. inversion E1; discriminate.
      * right; right. destruct (fw_flush w (wa_flush a)) as [[wx rx] ax]. cbn [fst snd] in *. inversion E1; discriminate.
    + cbn [andb] in *. destruct r1.
      * left. auto.
      * right; right. destruct (fw_flush w (wa_flush a)) as [[wx rx] ax]. cbn [fst snd] in *. inversion E1; discriminate.
      * right; right. destruct (fw_flush w (wa_flush a)) as [[wx rx] ax]. cbn [fst snd] in *. inversion E1; discriminate.
  - intros big NE BIG B. specialize (N3 NE). unfold w4 in L5. 
    assert (L2 : (length (fw_buf w2) <= length (fw_buf w))%nat) by (unfold w2; destruct (connects e s); cbn; lia).
    destruct eg as [|m q] eqn:EG; [unfold blen in *; lia|].
    unfold fw_send in L5. cbn [fw_buf] in L5. rewrite app_length in L5.
    assert (Hm : blen (rr_encode m) <= big).
    { apply BIG. assert (I : In m (on_connection [] os)) by (rewrite On; apply in_or_app; right; left; reflexivity).
      destruct (on_in m os [] I) as [[]|J]; exact J. }
    unfold eg in EG. destruct (writes e s); [|discriminate]. cbn [andb] in EG. destruct r3; [|discriminate|contradiction].
    destruct (B3 eq_refl eq_refl) as [X|X]; [rewrite X in L5; cbn [length] in L5|]; unfold blen in *; lia.
Qed.

Definition driver_event (ev : rw_event) (dev : req_event) : Prop :=
  match ev, dev with
  | RwReq c p, EReq c' p' => c = c' /\ p = p'
  | RwDrop, EDrop => True
  | RwIter e _, EIter e' => computed e e'
  | _, _ => False
  end.
Lemma rw_step_spec s w ev s' w' os : rw_step o co D bd s w ev = (s', w', os) ->
  (exists dev, driver_event ev dev /\ rd_step o co D s dev = (s', os)) /\
  (forall acc, total w = encs acc -> total w' = encs (on_connection acc os)) /\
  (covered s w -> covered s' w') /\
  (forall big, (forall e a, ev = RwIter e a -> no_write_error a) -> (forall m, In (Handed m true) os -> blen (rr_encode m) <= big) ->
     blen (fw_buf w) <= (bd - 1) + big -> blen (fw_buf w') <= (bd - 1) + big).
Proof using.
  destruct ev as [c p| |e a]; cbn [rw_step].
  - destruct (rd_step o co D s (EReq c p)) as [s1 o1] eqn:St. intros H; inversion H; subst. split; [exists (EReq c p); split; [split; reflexivity|exact St]|].
    cbn [rd_step] in St. assert (Q : quiet os /\ rd_flush s' = rd_flush s).
    { destruct (rd_done s || rd_dropped s); inversion St; subst; (split; [|reflexivity]); [intros x [<-|[]]; reflexivity|apply quiet_nil]. }
    destruct Q as [Q F]. split; [intros acc T; rewrite quiet_on by exact Q; exact T|]. split; [unfold covered; rewrite F; auto|]. auto.
  - destruct (rd_step o co D s EDrop) as [s1 o1] eqn:St. intros H; inversion H; subst. split; [exists EDrop; split; [exact I|exact St]|].
    cbn [rd_step] in St. inversion St; subst. split; [auto|]. split; [auto|]. auto.
  - destruct (rd_done s) eqn:Dn.
    + intros H; inversion H; subst. split; [exists (EIter (with_answers e true true true)); split; [eexists _, _, _; reflexivity|cbn [rd_step]; rewrite Dn; reflexivity]|]. auto.
    + destruct (rw_iter o co D bd e a s w) as [[[s1 w1] o1] c] eqn:It. intros H; inversion H; subst. apply rw_iter_spec in It as (e' & Ce & It & T & C & _ & B).
      split; [exists (EIter e'); split; [exact Ce|cbn [rd_step]; rewrite Dn, It; reflexivity]|]. split; [exact T|]. split; [exact C|]. intros big NE. apply B. eapply NE; reflexivity.
Qed.

Lemma rw_run_spec evs : forall s w s' w' os, rw_run o co D bd s w evs = (s', w', os) ->
  (exists devs, Forall2 driver_event evs devs /\ rd_run o co D s devs = (s', os)) /\
  (forall acc, total w = encs acc -> total w' = encs (on_connection acc os)) /\
  (covered s w -> covered s' w') /\
  (forall big, (forall e a, In (RwIter e a) evs -> no_write_error a) -> (forall m, In (Handed m true) os -> blen (rr_encode m) <= big) ->
     blen (fw_buf w) <= (bd - 1) + big -> blen (fw_buf w') <= (bd - 1) + big).
Proof using.
  induction evs as [|ev evs IH]; intros s w s' w' os; cbn [rw_run].
  - intros H; inversion H; subst. split; [exists []; split; [constructor|reflexivity]|]. auto.
  - destruct (rw_step o co D bd s w ev) as [[s1 w1] o1] eqn:St. destruct (rw_run o co D bd s1 w1 evs) as [[s2 w2] o2] eqn:R.
    intros H; inversion H; subst. apply rw_step_spec in St as ((dev & E1 & R1) & T1 & C1 & B1). apply IH in R as ((devs & E2 & R2) & T2 & C2 & B2).
    split; [exists (dev :: devs); split; [constructor; assumption|cbn [rd_run]; rewrite R1, R2; reflexivity]|].
    split; [intros acc T; rewrite on_app; auto|]. split; [auto|]. intros big NE BIG B. apply B2; [intros e a I; apply (NE e a); right; exact I|intros m I; apply BIG, in_or_app; right; exact I|].
    apply B1; [intros e a ->; apply (NE e a); left; reflexivity|intros m I; apply BIG, in_or_app; left; exact I|exact B].
Qed.
Lemma rw_run_app evs1 : forall s w evs2, rw_run o co D bd s w (evs1 ++ evs2) =
  match rw_run o co D bd s w evs1 with (s1, w1, o1) => match rw_run o co D bd s1 w1 evs2 with (s2, w2, o2) => (s2, w2, o1 ++ o2) end end.
Proof using.
  induction evs1 as [|ev evs IH]; intros s w evs2; cbn [app rw_run].
  - destruct (rw_run o co D bd s w evs2) as [[? ?] ?]. reflexivity.
  - destruct (rw_step o co D bd s w ev) as [[s1 w1] o1]. rewrite IH. destruct (rw_run o co D bd s1 w1 evs) as [[s2 w2] o2].
    destruct (rw_run o co D bd s2 w2 evs2) as [[s3 w3] o3]. rewrite app_assoc. reflexivity.
Qed.
End Req.

(** ** Reply socket *)
Section Rep.
Variables (min : N) (co : option compressor).
Definition pcovered (p : peer) (w : fw) : Prop := fw_buf w = [] \/ pr_flush p = true.

Lemma peer_sends e os rid p p' tx f o r : p_send e = true -> peer_iter min co e os rid p 0 0 = (p', tx, f, o, r) ->
  rep_frames o = (match (if p_ready e then pr_egress p else []) with m :: _ => [m] | [] => [] end) /\
  pr_flush p' = (match (if p_ready e then pr_egress p else []) with [] => pr_flush p && negb (p_flush_ok e) | _ => true end) /\
  (r = PPend -> (if p_ready e then pr_egress p else []) = []) /\ (forall c m k, In (RHanded c m k) o -> c = pr_cid p) /\ pr_cid p' = pr_cid p.
Proof using.
  intros Se. unfold peer_iter. set (p1 := if pr_flush p && p_flush_ok e then mkPeer (pr_cid p) (pr_pending p) (pr_egress p) false (pr_open p) else p).
  assert (P : pr_egress p1 = pr_egress p /\ pr_flush p1 = (pr_flush p && negb (p_flush_ok e)) /\ pr_cid p1 = pr_cid p).
  { unfold p1. destruct (pr_flush p) eqn:F, (p_flush_ok e); cbn; rewrite ?F; auto. }
  destruct P as (P1 & P2 & P3). rewrite P1, <- P2. clearbody p1. clear P1 P2. rewrite <- P3. clear P3.
  destruct (if p_ready e then pr_egress p else []) as [|m q].
  - destruct (pick (p_pref e) os (pr_pending p1)) as [[rr id]|].
    + destruct (mget rr os) as [[|x|]|] eqn:G.
      2: { destruct (rep_outgoing min co id x); intros H; inversion H; subst; cbn; repeat split; auto; try discriminate; intros ? ? ? [Q|[]]; discriminate. }
      all: destruct (p_next e); intros H; inversion H; subst; cbn; repeat split; auto; try discriminate; intros ? ? ? [].
    + destruct (p_next e); intros H; inversion H; subst; cbn; repeat split; auto; try discriminate; intros ? ? ? [].
  - rewrite Se. intros H; inversion H; subst. cbn. repeat split; auto; try discriminate. intros ? ? ? [Q|[]]. inversion Q; reflexivity.
Qed.

Lemma pw_iter_spec e a os rid p w p' w' o r : pw_iter min co e a os rid p w = (p', w', o, r) ->
  (forall acc, total w = encs acc -> total w' = encs (acc ++ rep_frames o)) /\
  (pcovered p w -> pcovered p' w') /\
  (r = PPend -> pcovered p w -> fw_buf w' = [] \/ snd (fst (fw_flush w (wa_flush a))) <> WReady) /\
  (forall big, no_write_error a -> (forall m, In m (rep_frames o) -> blen (rr_encode m) <= big) ->
     blen (fw_buf w) <= (default_boundary - 1) + big -> blen (fw_buf w') <= (default_boundary - 1) + big).
Proof using.
  unfold pw_iter. destruct (if pr_flush p then fst (fw_flush w (wa_flush a)) else (w, WPending)) as [w1 r1] eqn:E1.
  destruct (fw_ready default_boundary w1 (wa_ready a)) as [[w2 r2] ax] eqn:E2. cbn [fst].
  set (w3 := match (if is_ready r2 then pr_egress p else []) with [] => w2 | m :: _ => fw_send rr_encode m w2 end).
  destruct (peer_iter min co (mkPenv (is_ok r1) (is_ready r2) true (p_pref e) (p_next e)) os rid p 0 0) as [[[[p0 tx] f] o0] r0] eqn:It.
  intros H; inversion H; subst p0 w' o0 r0; clear H. apply peer_sends in It as (Fr & Fl & Pe & _); [|reflexivity]. cbn [p_ready p_flush_ok] in *.
  set (eg := if is_ready r2 then pr_egress p else []) in *.
  assert (P1 : total w1 = total w /\ (is_ok r1 = true -> fw_buf w1 = []) /\ (length (fw_buf w1) <= length (fw_buf w))%nat).
  { destruct (pr_flush p).
    - destruct (fw_flush w (wa_flush a)) as [[wx rx] ax'] eqn:F. cbn [fst] in E1. inversion E1; subst. apply flush_total in F as (T & K & _ & L).
      split; [exact T|]. split; [|exact L]. destruct r1; try discriminate. auto.
    - inversion E1; subst. split; [reflexivity|]. split; [discriminate|auto]. }
  pose proof E2 as G2. apply ready_total in E2 as (T2 & _ & L2 & K2). destruct P1 as (T1 & F1 & L1).
  assert (EM : pcovered p w -> fw_buf w2 = [] \/ pr_flush p && negb (is_ok r1) = true).
  { intros CV. assert (X : fw_buf w1 = [] \/ pr_flush p && negb (is_ok r1) = true).
    { destruct CV as [CV|CV]; [left; rewrite CV in L1; destruct (fw_buf w1); [reflexivity|cbn in L1; lia]|]. rewrite CV. destruct (is_ok r1) eqn:OK; [left; auto|right; reflexivity]. }
    destruct X as [X|X]; [left|right; exact X]. rewrite X in L2. destruct (fw_buf w2); [reflexivity|cbn in L2; lia]. }
  split; [|split; [|split]].
  - intros acc T. rewrite Fr, encs_app. unfold w3. fold eg. destruct eg as [|m q].
    + cbn [encs map concat]. rewrite app_nil_r. congruence.
    + unfold total, fw_send in *. cbn [fw_buf fw_out]. rewrite app_assoc, T2, T1, T. unfold encs at 3. cbn [map concat]. rewrite app_nil_r. reflexivity.
  - intros CV. unfold pcovered. rewrite Fl. unfold w3. fold eg. destruct eg as [|m q]; [|right; reflexivity]. exact (EM CV).
  - intros Pc CV. specialize (Pe Pc). unfold w3. fold eg. rewrite Pe. destruct (EM CV) as [X|X]; [left; exact X|right].
    destruct (pr_flush p); [|discriminate]. cbn [andb] in X. destruct (fw_flush w (wa_flush a)) as [[wx rx] ax']. cbn [fst snd] in *. inversion E1; subst.
    destruct r1; [discriminate|discriminate|discriminate].
  - intros big NE BIG B. assert (N2 : r2 <> WFail). { eapply ready_no_error; [|exact G2]. intros x I. apply NE. unfold answers. apply in_or_app. right. apply in_or_app. left. exact I. }
    rewrite Fr in BIG. unfold w3. fold eg. destruct eg as [|m q] eqn:EG; [unfold blen in *; lia|].
    specialize (BIG m (or_introl eq_refl)). unfold eg in EG. destruct r2; [|discriminate|contradiction]. unfold fw_send. cbn [fw_buf]. unfold blen in *. rewrite app_length.
    destruct (K2 eq_refl) as [X|X]; [rewrite X; cbn [length]|]; lia.
Qed.

Lemma rep_frames_app a b : rep_frames (a ++ b) = rep_frames a ++ rep_frames b.
Proof using. apply flat_map_app. Qed.

Lemma pw_run_spec l : forall p w p' w' o r, pw_run min co p w l = (p', w', o, r) ->
  (forall acc, total w = encs acc -> total w' = encs (acc ++ rep_frames o)) /\
  (pcovered p w -> pcovered p' w') /\
  (forall big, (forall i, In i l -> no_write_error (pi_wans i)) -> (forall m, In m (rep_frames o) -> blen (rr_encode m) <= big) ->
     blen (fw_buf w) <= (default_boundary - 1) + big -> blen (fw_buf w') <= (default_boundary - 1) + big).
Proof using.
  induction l as [|i l IH]; intros p w p' w' o r; cbn [pw_run].
  - intros H; inversion H; subst. cbn. split; [intros acc; rewrite app_nil_r; auto|]. auto.
  - destruct (pw_iter min co (pi_env i) (pi_wans i) (pi_os i) (pi_rid i) p w) as [[[p1 w1] o1] r1] eqn:It.
    apply pw_iter_spec in It as (T1 & C1 & _ & B1).
    assert (STOP : (p1, w1, o1, Some r1) = (p', w', o, r) ->
      (forall acc, total w = encs acc -> total w' = encs (acc ++ rep_frames o)) /\ (pcovered p w -> pcovered p' w') /\
      (forall big, (forall i0, In i0 (i :: l) -> no_write_error (pi_wans i0)) -> (forall m, In m (rep_frames o) -> blen (rr_encode m) <= big) ->
       blen (fw_buf w) <= (default_boundary - 1) + big -> blen (fw_buf w') <= (default_boundary - 1) + big)).
    { intros H; inversion H; subst. split; [exact T1|]. split; [exact C1|]. intros big NE. apply B1, NE. left; reflexivity. }
    destruct (pw_run min co p1 w1 l) as [[[p2 w2] o2] r2] eqn:R. destruct (IH _ _ _ _ _ _ R) as (T2 & C2 & B2). clear IH.
    assert (GO : (p2, w2, o1 ++ o2, match r2 with None => Some r1 | Some _ => r2 end) = (p', w', o, r) ->
      (forall acc, total w = encs acc -> total w' = encs (acc ++ rep_frames o)) /\ (pcovered p w -> pcovered p' w') /\
      (forall big, (forall i0, In i0 (i :: l) -> no_write_error (pi_wans i0)) -> (forall m, In m (rep_frames o) -> blen (rr_encode m) <= big) ->
       blen (fw_buf w) <= (default_boundary - 1) + big -> blen (fw_buf w') <= (default_boundary - 1) + big)).
    { intros H; inversion H; subst. split; [intros acc T; rewrite rep_frames_app, app_assoc; auto|]. split; [auto|]. rewrite rep_frames_app. intros big NE BIG B.
      apply B2; [intros j J; apply NE; right; exact J|intros m I; apply BIG, in_or_app; right; exact I|].
      apply B1; [apply NE; left; reflexivity|intros m I; apply BIG, in_or_app; left; exact I|exact B]. }
    destruct r1; auto.
Qed.
End Rep.
