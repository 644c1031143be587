(** Histories in which every write fails, for the refutations of C73 and C74. *)
From Coq Require Import ZArith ZifyBool ZifyNat ZifyN.
From Verif Require Import Model.Base Model.Map Model.Framed Model.FramedWrite Model.WireReqRep Model.WirePubSub Model.Compression
  Model.Backoff Model.Trie Model.Utf8 Model.ReqDriver Model.RepDriver Model.PubDriver Model.SubDriver Model.Writers
  Spec.WriteSpec Spec.Stream Proofs.BaseP Proofs.FramedP Proofs.FramedWriteP Proofs.WritersP Proofs.WritersP2.
Lemma flush_fail w : fst (fw_flush w [WrErr]) = (w, WFail).
Proof. destruct w as [[|x b] out]; reflexivity. Qed.
Lemma ready_fail bd w : exists r, fst (fw_ready bd w [WrErr]) = (w, r) /\ is_ready r = true.
Proof. unfold fw_ready. destruct (bd <=? blen (fw_buf w)); [rewrite flush_fail; eexists; split; reflexivity|eexists; split; reflexivity]. Qed.

Lemma rr_encode_len m : blen (rr_encode m) = 10 + blen (rr_payload m).
Proof.
  unfold rr_encode, blen. cbn [length]. rewrite !app_length, !put_be_length. lia.
Qed.
Section R.
Variables (o : ropts) (D : decompressors) (bd : N).
Definition idle_state (s : rd) : Prop :=
  rd_cmds s = [] /\ rd_dropped s = false /\ rd_task s = false /\ rd_conn s = RActive /\ rd_egress s = [] /\ rd_done s = false.

Lemma iter_fail s w : rd_task s = false -> rd_conn s = RActive -> rd_dropped s = false ->
  exists e', computed wx_idle e' /\ e_flush_ok e' = false /\ e_ready e' = true /\
  rw_iter o None D bd wx_idle wx_fail s w =
   (let '(s', os, c) := rd_iter o None D e' s in (s', match rd_egress s with m :: _ => fw_send rr_encode m w | [] => w end, os, c)).
Proof.
  intros T C Dr. unfold rw_iter. unfold is_active. rewrite T, C, Dr. cbn [wa_flush wa_ready wa_close wx_fail andb orb wx_idle e_next].
  destruct (ready_fail bd w) as (r3 & R3 & I3).
  set (tick := match ro_flush_interval o with Some _ => _ | None => _ end).
  assert (X : exists r1, is_ok r1 = false /\ (if rd_flush s && tick && true then fst (fw_flush w [WrErr]) else (w, WPending)) = (w, r1)).
  { destruct (rd_flush s && tick && true); [rewrite flush_fail; exists WFail|exists WPending]; split; reflexivity. }
  destruct X as (r1 & I1 & ->). rewrite R3, I3, I1. cbn [andb]. rewrite !andb_false_r.
  exists (with_answers wx_idle false true false). split; [eexists _, _, _; reflexivity|]. split; [reflexivity|]. split; [reflexivity|]. cbn [is_ready].
  match goal with |- context [rd_iter _ _ _ ?e _] => destruct (rd_iter o None D e s) as [[s' os] c] end. reflexivity.
Qed.

Lemma flush_skip e s : e_flush_ok e = false -> rd_do_flush o e s = s.
Proof. unfold rd_do_flush. intros ->. destruct (rd_flush s); [|reflexivity]. destruct (match ro_flush_interval o with Some _ => _ | None => _ end); [|reflexivity]. destruct (rd_conn s); reflexivity. Qed.

Lemma round_fail s w : idle_state s -> exists s' m os,
  rw_run o None D bd s w wx_round = (s', mkFw (fw_buf w ++ rr_encode m) (fw_out w), os ++ [Handed m true]) /\ idle_state s' /\ length (rr_encode m) = 10%nat /\ quiet os.
Proof.
  intros (S1 & S2 & S3 & S4 & S5 & S6).
  set (m := req_into_wire (rd_id s) (req_outgoing (ro_min_compress o) None [])).
  set (sa := mkRd (rd_id s) [(1, [])] false false RActive [] (rd_pending s) (rd_flush s) (rd_tx s) (rd_rx s) (rd_rtts s) false).
  set (sb := mkRd (wrapping_add32 (rd_id s) 1) [] false false RActive [m] (mset (rr_id m) (0, 1) (rd_pending s)) (rd_flush s) (rd_tx s) (rd_rx s) (rd_rtts s) false).
  set (sc := mkRd (wrapping_add32 (rd_id s) 1) [] false false RActive [] (mset (rr_id m) (0, 1) (rd_pending s)) true (rd_tx s + rr_size m) (rd_rx s) (rd_rtts s) false).
  set (os1 := Accept 0 1 m :: match mget (rr_id m) (rd_pending s) with Some (_, c') => [Resolve c' OClosed] | None => [] end).
  assert (A1 : rw_step o None D bd s w (RwReq 1 []) = (sa, w, [])).
  { cbn [rw_step rd_step]. rewrite S6, S2. cbn [orb]. unfold sa. rewrite S1, S3, S4, S5. reflexivity. }
  assert (A2 : rw_step o None D bd sa w (RwIter wx_idle wx_fail) = (sb, w, os1)).
  { unfold rw_step. change (rd_done sa) with false. cbv iota. destruct (iter_fail sa w eq_refl eq_refl eq_refl) as (e1 & (fl & rdy & cl & ->) & F1 & R1 & ->).
    unfold rd_iter. rewrite (flush_skip _ _ F1). cbn [e_ready with_answers] in R1. subst rdy. reflexivity. }
  assert (A3 : rw_step o None D bd sb w (RwIter wx_idle wx_fail) = (sc, fw_send rr_encode m w, [Handed m true])).
  { unfold rw_step. change (rd_done sb) with false. cbv iota. destruct (iter_fail sb w eq_refl eq_refl eq_refl) as (e1 & (fl & rdy & cl & ->) & F1 & R1 & ->).
    unfold rd_iter. rewrite (flush_skip _ _ F1). cbn [e_ready with_answers] in R1. subst rdy. reflexivity. }
  exists sc, m, os1. split; [|split; [repeat split|split; [|]]].
  - unfold wx_round. cbn [rw_run]. rewrite A1, A2, A3. reflexivity.
  - pose proof (rr_encode_len m) as L. assert (P : rr_payload m = []) by (unfold m, req_outgoing; destruct (_ <? _); reflexivity). rewrite P in L. unfold blen in L. cbn [length] in L. lia.
  - intros x [<-|I]; [reflexivity|]. destruct (mget _ _) as [[? ?]|]; [destruct I as [<-|[]]; reflexivity|destruct I].
Qed.

Lemma start_fail : exists s os, rw_run o None D bd rd_init fw_new wx_start = (s, fw_new, os ++ [Connected]) /\ idle_state s /\ ~ In Connected os /\ (forall m, ~ In (Handed m true) os).
Proof.
  destruct (ready_fail bd fw_new) as (r & R & I).
  eexists _, [StartConnect]. split; [|split; [|split]].
  - unfold wx_start. cbn [rw_run]. unfold rw_step, rw_iter. cbn -[fw_ready fw_flush rr_encode]. rewrite R. cbn -[fw_ready fw_flush rr_encode]. rewrite I. cbn. rewrite ?andb_false_r. cbn. reflexivity.
  - repeat split.
  - intros [H|[]]; discriminate.
  - intros m [H|[]]; discriminate.
Qed.

Definition handed_frames (os : list out) : list rr_msg := flat_map (fun x => match x with Handed m true => [m] | _ => [] end) os.
Lemma rounds_fail n : forall s w, idle_state s -> exists s' b os,
  rw_run o None D bd s w (concat (repeat wx_round n)) = (s', mkFw (fw_buf w ++ b) (fw_out w), os) /\ idle_state s' /\ length b = (10 * n)%nat /\
  ~ In Connected os /\ (forall m, In (Handed m true) os -> length (rr_encode m) = 10%nat).
Proof.
  induction n as [|n IH]; intros s w I; cbn [repeat concat].
  - exists s, [], []. split; [cbn; rewrite app_nil_r; destruct w; reflexivity|]. split; [exact I|]. split; [reflexivity|]. split; [auto|intros ? []].
  - destruct (round_fail s w I) as (s1 & m & os1 & R1 & I1 & L1 & Q1). destruct (IH s1 (mkFw (fw_buf w ++ rr_encode m) (fw_out w)) I1) as (s2 & b & os2 & R2 & I2 & L2 & C2 & H2).
    exists s2, (rr_encode m ++ b), ((os1 ++ [Handed m true]) ++ os2). rewrite rw_run_app, R1, R2. cbn [fw_buf fw_out]. split; [rewrite app_assoc; reflexivity|]. split; [exact I2|].
    split; [rewrite app_length, L1, L2; lia|]. split.
    + rewrite !in_app_iff. intros [[H|[H|[]]]|H]; [apply Q1 in H; discriminate|discriminate|auto].
    + intros m'. rewrite !in_app_iff. intros [[H|[H|[]]]|H]; [apply Q1 in H; discriminate|inversion H; subst; exact L1|auto].
Qed.
End R.

Section P.
Variable (min : N).
Definition px_env (k : N) (n : next_ans) : penv := mkPenv false false false (Some k) n.
Definition px_round (k : N) : list pw_input :=
  [mkPwIn (px_env k (NxMsg (rr_new 7 x00 []))) wx_fail [] k;
   mkPwIn (px_env k NxPending) wx_fail [(k, OsSent [])] (k + 1);
   mkPwIn (px_env k NxPending) wx_fail [] (k + 1)].
Definition idle_peer (p : peer) : Prop := pr_pending p = [] /\ pr_egress p = [].

Lemma piter_fail p w e os rid : pw_iter min None e wx_fail os rid p w =
  (let '(p', _, _, o, r) := peer_iter min None (mkPenv false true true (p_pref e) (p_next e)) os rid p 0 0 in
   (p', match pr_egress p with m :: _ => fw_send rr_encode m w | [] => w end, o, r)).
Proof.
  unfold pw_iter. cbn [wx_fail wa_flush wa_ready]. destruct (ready_fail default_boundary w) as (r & R & I).
  assert (X : exists r1, is_ok r1 = false /\ (if pr_flush p then fst (fw_flush w [WrErr]) else (w, WPending)) = (w, r1)).
  { destruct (pr_flush p); [rewrite flush_fail; exists WFail|exists WPending]; split; reflexivity. }
  destruct X as (r1 & I1 & ->). rewrite R, I, I1. reflexivity.
Qed.

Lemma pround_fail k p w : idle_peer p -> exists p' os,
  pw_run min None p w (px_round k) = (p', mkFw (fw_buf w ++ rr_encode (rr_new 7 x00 [])) (fw_out w), os, Some PCont) /\ idle_peer p' /\ rep_frames os = [rr_new 7 x00 []].
Proof.
  intros (S1 & S2). destruct p as [cid pend eg fl op]. cbn [pr_pending pr_egress] in *. subst.
  set (m := rr_new 7 x00 []).
  assert (A1 : pw_iter min None (px_env k (NxMsg m)) wx_fail [] k (mkPeer cid [] [] fl op) w = (mkPeer cid [(k, 7)] [] fl op, w, [], PReq m)).
  { rewrite piter_fail. unfold peer_iter. cbn [px_env p_pref p_next p_flush_ok p_ready p_send]. rewrite andb_false_r. reflexivity. }
  assert (A2 : pw_iter min None (px_env k NxPending) wx_fail [(k, OsSent [])] (k + 1) (mkPeer cid [(k, 7)] [] fl op) w = (mkPeer cid [] [m] fl op, w, [RQueued cid k m], PCont)).
  { rewrite piter_fail. unfold peer_iter. cbn [px_env p_pref p_next p_flush_ok p_ready p_send]. rewrite andb_false_r.
    assert (G : mget k [(k, OsSent [])] = Some (OsSent [])) by (cbn; destruct (eq_dec k k); [reflexivity|contradiction]).
    unfold pick. cbn [pr_pending filter]. unfold os_done at 1. cbn [fst]. rewrite G. cbn [find fst]. rewrite N.eqb_refl. cbn [pr_egress]. rewrite G.
    cbn [rep_outgoing unpend filter fst]. unfold unpend. cbn [filter fst]. rewrite N.eqb_refl. reflexivity. }
  assert (A3 : pw_iter min None (px_env k NxPending) wx_fail [] (k + 1) (mkPeer cid [] [m] fl op) w = (mkPeer cid [] [] true op, fw_send rr_encode m w, [RHanded cid m true], PCont)).
  { rewrite piter_fail. unfold peer_iter. cbn [px_env p_pref p_next p_flush_ok p_ready p_send]. rewrite andb_false_r. reflexivity. }
  eexists _, _. unfold px_round. fold m. cbn [pw_run pi_env pi_wans pi_os pi_rid]. rewrite A1, A2, A3. split; [reflexivity|]. split; [split; reflexivity|]. reflexivity.
Qed.

Fixpoint px_rounds (n : nat) (k : N) : list pw_input := match n with O => [] | S n' => px_round k ++ px_rounds n' (k + 1) end.
Lemma pw_run_app l1 : forall p w l2 p1 w1 o1, pw_run min None p w l1 = (p1, w1, o1, Some PCont) ->
  pw_run min None p w (l1 ++ l2) = match pw_run min None p1 w1 l2 with (p2, w2, o2, r2) => (p2, w2, o1 ++ o2, match r2 with None => Some PCont | _ => r2 end) end.
Proof.
  induction l1 as [|i l IH]; intros p w l2 p1 w1 o1; cbn [pw_run app]; [discriminate|].
  destruct (pw_iter min None (pi_env i) (pi_wans i) (pi_os i) (pi_rid i) p w) as [[[p' w'] o] r].
  assert (K : r <> PNone -> (let '(p2, w2, o2, r2) := pw_run min None p' w' l in (p2, w2, o ++ o2, match r2 with None => Some r | _ => r2 end)) = (p1, w1, o1, Some PCont) ->
     (let '(p2, w2, o2, r2) := pw_run min None p' w' (l ++ l2) in (p2, w2, o ++ o2, match r2 with None => Some r | _ => r2 end)) =
     match pw_run min None p1 w1 l2 with (p2, w2, o2, r2) => (p2, w2, o1 ++ o2, match r2 with None => Some PCont | _ => r2 end) end).
  { intros _ H. destruct (pw_run min None p' w' l) as [[[pa wa] oa] ra] eqn:R. destruct ra as [ra|].
    - inversion H; subst. rewrite (IH _ _ l2 _ _ _ R). destruct (pw_run min None p1 w1 l2) as [[[pb wb] ob] rb]. rewrite app_assoc. destruct rb; reflexivity.
    - inversion H; subst. destruct l as [|j l]; [|exfalso; cbn [pw_run] in R; destruct (pw_iter min None (pi_env j) (pi_wans j) (pi_os j) (pi_rid j) p' w') as [[[? ?] ?] q]; destruct q; try discriminate;
        match goal with H : context [pw_run min None ?a ?b l] |- _ => destruct (pw_run min None a b l) as [[[? ?] ?] [|]] end; discriminate].
      cbn in R. inversion R; subst. cbn [app]. rewrite app_nil_r. destruct (pw_run min None p1 w1 l2) as [[[pb wb] ob] rb]. destruct rb; reflexivity. }
  destruct r; try (apply K; discriminate). discriminate.
Qed.
Lemma prounds_fail n : forall k p w, idle_peer p -> exists p' b os r,
  pw_run min None p w (px_rounds n k) = (p', mkFw (fw_buf w ++ b) (fw_out w), os, r) /\ idle_peer p' /\ length b = (10 * n)%nat /\ (r = None \/ r = Some PCont) /\
  (forall m, In m (rep_frames os) -> m = rr_new 7 x00 []).
Proof.
  induction n as [|n IH]; intros k p w I; cbn [px_rounds].
  - exists p, [], [], None. split; [cbn; rewrite app_nil_r; destruct w; reflexivity|]. split; [exact I|]. split; [reflexivity|]. split; [auto|intros ? []].
  - destruct (pround_fail k p w I) as (p1 & os1 & R1 & I1 & F1). destruct (IH (k + 1) p1 (mkFw (fw_buf w ++ rr_encode (rr_new 7 x00 [])) (fw_out w)) I1) as (p2 & b & os2 & r & R2 & I2 & L2 & C2 & H2).
    exists p2, (rr_encode (rr_new 7 x00 []) ++ b), (os1 ++ os2), (Some PCont). rewrite (pw_run_app _ _ _ _ _ _ _ R1), R2. cbn [fw_buf fw_out]. split; [rewrite app_assoc; destruct C2 as [-> | ->]; reflexivity|]. split; [exact I2|].
    split; [rewrite app_length, L2; change (length (rr_encode (rr_new 7 x00 []))) with 10%nat; lia|]. split; [auto|].
    intros m. rewrite rep_frames_app, in_app_iff, F1. intros [[H|[]]|H]; auto.
Qed.
End P.

Section S.
Variables (buf bd cid : N).
Hypothesis BUF : 0 < buf.
Definition sx_topic : bytes := [x61].
Definition sx_msg : pmsg := mkPm sx_topic (om_new []).
Definition sx_sub : ps_msg :=
  {| ps_hdr := {| psh_ctype := x00; psh_topic_size := 9; psh_topic := sub_prefix ++ sx_topic; psh_timestamp := 0; psh_seq := 0; psh_size := 0 |}; ps_payload := [] |}.
Definition sx_env (n : ps_next) : senv := mkSenv true false false false 0 n.
Definition sx_filter : node := trie_op trie_new (TSub sx_topic).
Definition sx_round (k : nat) : list sw_input :=
  [mkSwIn (sx_env PnPending) wx_fail (repeat sx_msg (S k)) false; mkSwIn (sx_env PnPending) wx_fail (repeat sx_msg (S k)) false].
Definition idle_sess (k : nat) (s : sess) : Prop := sn_pos s = N.of_nat k /\ sn_pending s = None /\ sn_filter s = sx_filter.

Lemma siter_fail s w e hist : s_tick e = true -> sw_iter buf bd cid e wx_fail hist false s w =
  (let '(s', _, o, r) := sn_iter buf cid (mkSenv true false true true (s_now e) (s_next e)) hist false s in
   (s', match sn_pending s with Some m => fw_send ps_encode m w | None => w end, o, r)).
Proof.
  intros T. unfold sw_iter. rewrite T. cbn [wx_fail wa_flush wa_ready]. destruct (ready_fail bd w) as (r & R & I).
  assert (X : exists r1, is_ok r1 = false /\ (if sn_flush s && true then fst (fw_flush w [WrErr]) else (w, WPending)) = (w, r1)).
  { destruct (sn_flush s && true); [rewrite flush_fail; exists WFail|exists WPending]; split; reflexivity. }
  destruct X as (r1 & I1 & ->). rewrite R, I, I1. reflexivity.
Qed.

Lemma ps_encode_len m : (20 <= blen (ps_encode m)).
Proof. unfold ps_encode, blen. cbn [length]. rewrite !app_length, !put_be_length. lia. Qed.

Lemma sround_fail k s w : idle_sess k s -> exists s' m os,
  sw_run buf bd cid s w (sx_round k) = (s', mkFw (fw_buf w ++ ps_encode m) (fw_out w), os, Some SCont) /\ idle_sess (S k) s' /\ pub_frames os = [m] /\ blen (ps_encode m) = 21.
Proof using BUF.
  intros (S1 & S2 & S3). destruct s as [q pos pend F fl]. cbn [sn_pos sn_pending sn_filter] in *. subst.
  assert (M : exists m, ps_new 0 q sx_topic [] x00 = Some m) by (eexists; reflexivity). destruct M as (m & M).
  assert (A1 : sw_iter buf bd cid (sx_env PnPending) wx_fail (repeat sx_msg (S k)) false (mkSess q (N.of_nat k) None sx_filter fl) w =
     (mkSess (wrapping_add32 q 1) (N.of_nat k + 1) (Some m) sx_filter fl, w, [QTook cid (N.of_nat k)], SCont)).
  { rewrite siter_fail by reflexivity. cbn [sn_pending]. unfold sn_iter. cbn [s_tick s_flush_ok s_ready sn_flush sn_seq sn_pos sn_pending sn_filter s_now sx_env].
    rewrite andb_false_r. unfold bcast_recv, bcast_cap. assert (L : blen (repeat sx_msg (S k)) = N.of_nat k + 1) by (unfold blen; rewrite repeat_length; lia). rewrite L.
    destruct (N.eqb_spec (N.of_nat k) (N.of_nat k + 1)); [lia|]. assert (C : 1 <= 2 ^ N.log2_up buf) by (apply (N.pow_le_mono_r 2 0); lia).
    destruct (N.ltb_spec (N.of_nat k + 2 ^ N.log2_up buf) (N.of_nat k + 1)); [lia|]. rewrite Nat2N.id.
    rewrite nth_error_repeat by lia. change (trie_contains sx_filter (pm_topic sx_msg)) with true. cbv iota. unfold pub_into_wire. cbn [pm_topic pm_body sx_msg om_new om_payload om_ctype ctype_byte]. rewrite M. reflexivity. }
  assert (A2 : sw_iter buf bd cid (sx_env PnPending) wx_fail (repeat sx_msg (S k)) false (mkSess (wrapping_add32 q 1) (N.of_nat k + 1) (Some m) sx_filter fl) w =
     (mkSess (wrapping_add32 q 1) (N.of_nat k + 1) None sx_filter true, fw_send ps_encode m w, [QHanded cid m true], SCont)).
  { rewrite siter_fail by reflexivity. reflexivity. }
  eexists _, m, _. unfold sx_round. cbn [sw_run si_env si_wans si_hist si_closed]. rewrite A1, A2. split; [reflexivity|]. split; [|split; [reflexivity|]].
  - split; [|split; reflexivity]. cbn [sn_pos]. lia.
  - inversion M. reflexivity.
Qed.

Fixpoint sx_rounds (n k : nat) : list sw_input := match n with O => [] | S n' => sx_round k ++ sx_rounds n' (S k) end.
Lemma sw_run_app l1 : forall s w l2 s1 w1 o1, sw_run buf bd cid s w l1 = (s1, w1, o1, Some SCont) ->
  sw_run buf bd cid s w (l1 ++ l2) = match sw_run buf bd cid s1 w1 l2 with (s2, w2, o2, r2) => (s2, w2, o1 ++ o2, match r2 with None => Some SCont | _ => r2 end) end.
Proof.
  induction l1 as [|i l IH]; intros s w l2 s1 w1 o1; cbn [sw_run app]; [discriminate|].
  destruct (sw_iter buf bd cid (si_env i) (si_wans i) (si_hist i) (si_closed i) s w) as [[[s' w'] o] r].
  assert (K : r <> SDone -> (let '(s2, w2, o2, r2) := sw_run buf bd cid s' w' l in (s2, w2, o ++ o2, match r2 with None => Some r | _ => r2 end)) = (s1, w1, o1, Some SCont) ->
     (let '(s2, w2, o2, r2) := sw_run buf bd cid s' w' (l ++ l2) in (s2, w2, o ++ o2, match r2 with None => Some r | _ => r2 end)) =
     match sw_run buf bd cid s1 w1 l2 with (s2, w2, o2, r2) => (s2, w2, o1 ++ o2, match r2 with None => Some SCont | _ => r2 end) end).
  { intros _ H. destruct (sw_run buf bd cid s' w' l) as [[[pa wa] oa] ra] eqn:R. destruct ra as [ra|].
    - inversion H; subst. rewrite (IH _ _ l2 _ _ _ R). destruct (sw_run buf bd cid s1 w1 l2) as [[[pb wb] ob] rb]. rewrite app_assoc. destruct rb; reflexivity.
    - inversion H; subst. destruct l as [|j l]; [|exfalso; cbn [sw_run] in R; destruct (sw_iter buf bd cid (si_env j) (si_wans j) (si_hist j) (si_closed j) s' w') as [[[? ?] ?] q]; destruct q; try discriminate;
        match goal with H : context [sw_run buf bd cid ?a ?b l] |- _ => destruct (sw_run buf bd cid a b l) as [[[? ?] ?] [|]] end; discriminate].
      cbn in R. inversion R; subst. cbn [app]. rewrite app_nil_r. destruct (sw_run buf bd cid s1 w1 l2) as [[[pb wb] ob] rb]. destruct rb; reflexivity. }
  destruct r; try (apply K; discriminate); discriminate.
Qed.
Lemma srounds_fail n : forall k s w, idle_sess k s -> exists s' b os r,
  sw_run buf bd cid s w (sx_rounds n k) = (s', mkFw (fw_buf w ++ b) (fw_out w), os, r) /\ idle_sess (n + k) s' /\ length b = (21 * n)%nat /\ (r = None \/ r = Some SCont) /\
  (forall m, In m (pub_frames os) -> blen (ps_encode m) = 21).
Proof using BUF.
  induction n as [|n IH]; intros k s w I; cbn [sx_rounds].
  - exists s, [], [], None. split; [cbn; rewrite app_nil_r; destruct w; reflexivity|]. split; [exact I|]. split; [reflexivity|]. split; [auto|intros ? []].
  - destruct (sround_fail k s w I) as (s1 & m & os1 & R1 & I1 & F1 & L1). destruct (IH (S k) s1 (mkFw (fw_buf w ++ ps_encode m) (fw_out w)) I1) as (s2 & b & os2 & r & R2 & I2 & L2 & C2 & H2).
    exists s2, (ps_encode m ++ b), (os1 ++ os2), (Some SCont). rewrite (sw_run_app _ _ _ _ _ _ _ R1), R2. cbn [fw_buf fw_out]. split; [rewrite app_assoc; destruct C2 as [-> | ->]; reflexivity|].
    split; [replace (S n + k)%nat with (n + S k)%nat by lia; exact I2|].
    split; [rewrite app_length, L2; unfold blen in L1; lia|]. split; [auto|].
    intros m'. rewrite pub_frames_app, in_app_iff, F1. intros [[H|[]]|H]; [subst; exact L1|auto].
Qed.

Definition sx_start : list sw_input := [mkSwIn (sx_env (PnMsg sx_sub)) wx_fail [] false].
Lemma sstart_fail : exists s os, sw_run buf bd cid (sess_new 0) fw_new sx_start = (s, fw_new, os, Some SCont) /\ idle_sess 0 s /\ pub_frames os = [].
Proof using BUF.
  eexists _, _. unfold sx_start. cbn [sw_run si_env si_wans si_hist si_closed]. rewrite siter_fail by reflexivity.
  cbn [sess_new sn_pending sn_iter]. split; [reflexivity|]. split; [repeat split|reflexivity].
Qed.
End S.

(** ** Subscriber *)
Lemma stuck_iter cid e fl se x w : sc_flush x = false -> sc_egress x = [] -> sc_cmds x = [] -> sc_alive x = true -> sc_held x = true ->
  exists x' o r, yw_iter cid e fl se x w = (x', w, o, r) /\ sc_flush x' = false /\ sc_egress x' = [] /\ sc_cmds x' = [] /\ sc_alive x' = true /\ sc_held x' = true /\ sub_frames o = [].
Proof.
  destruct x as [ad eg f inn cm al he rx la]. cbn [sc_flush sc_egress sc_cmds sc_alive sc_held]. intros -> -> -> -> ->.
  unfold yw_iter. cbn [sc_flush sc_egress yw_sends]. destruct (y_next e) as [m| | |] eqn:Y; unfold ss_iter; cbn [y_next y_flush y_now y_sends sc_flush sc_egress sc_set_egress sc_cmds eg_loop andb orb]; rewrite ?Y.
  1: { unfold ss_incoming. cbn [sc_in]. repeat match goal with |- context [if ?b then _ else _] => destruct b end; eexists _, _, _; (split; [reflexivity|]); repeat split. }
  all: eexists _, _, _; (split; [reflexivity|]); repeat split.
Qed.
Lemma stuck_run cid l : forall x w, (forall ev, In ev l -> exists e fl se, ev = YwIter e fl se) ->
  sc_flush x = false -> sc_egress x = [] -> sc_cmds x = [] -> sc_alive x = true -> sc_held x = true ->
  exists x' o, yw_run cid x w l = (x', w, o) /\ sc_alive x' = true /\ sub_frames o = [].
Proof.
  induction l as [|ev l IH]; intros x w K A1 A2 A3 A4 A5.
  - exists x, []. repeat split; auto.
  - destruct (K ev (or_introl eq_refl)) as (e & fl & se & ->). destruct (stuck_iter cid e fl se x w A1 A2 A3 A4 A5) as (x1 & o1 & r & I & B1 & B2 & B3 & B4 & B5 & F1).
    destruct (IH x1 w (fun ev I => K ev (or_intror I)) B1 B2 B3 B4 B5) as (x2 & o2 & R & C & F2). exists x2, (o1 ++ o2). cbn [yw_run]. rewrite A4, I, R. split; [reflexivity|]. split; [exact C|].
    rewrite sub_frames_app, F1, F2. reflexivity.
Qed.

Lemma flush_fails ans : forall w, snd (fst (fw_flush w ans)) = WFail -> exists a, In a ans /\ write_error a.
Proof.
  induction ans as [|a ans IH]; intros w; cbn [fw_flush]; destruct (fw_buf w) as [|x b].
  1, 2: discriminate.
  - destruct a; cbn; try discriminate. intros _. exists WrErr. split; [left; reflexivity|left; reflexivity].
  - destruct a as [[|n]| |]; cbn [fst snd]; try discriminate.
    + intros _. exists (WrOk 0). split; [left; reflexivity|right; reflexivity].
    + intros H. apply IH in H as (a & I & E). exists a. split; [right; exact I|exact E].
    + intros _. exists WrErr. split; [left; reflexivity|left; reflexivity].
Qed.

Lemma ycov_run cid l : forall x w x' w' o, yw_run cid x w l = (x', w', o) ->
  (forall e fl se a, In (YwIter e fl se) l -> In a fl -> ~ write_error a) -> ycovered x w -> ycovered x' w'.
Proof.
  induction l as [|ev l IH]; intros x w x' w' o; cbn [yw_run].
  - intros H; inversion H; subst; auto.
  - set (y := match ev with YwIter e fl se => _ | YwCmd c => _ | YwRelease => _ end). destruct y as [[x1 w1] o1] eqn:Y.
    destruct (yw_run cid x1 w1 l) as [[x2 w2] o2] eqn:R. intros H; inversion H; subst. intros NE C. eapply IH; [exact R|intros e fl se a I; apply (NE e fl se a); right; exact I|].
    unfold y in Y. destruct ev as [e fl se|c|].
    + destruct (sc_alive x); [|inversion Y; subst; exact C]. destruct (yw_iter cid e fl se x w) as [[[xa wa] oa] ra] eqn:It. inversion Y; subst.
      apply yw_iter_spec in It as (_ & K & _). apply K; [|exact C]. intros rr <- E. apply flush_fails in E as (z & I & E). exact (NE e fl se z (or_introl eq_refl) I E).
    + inversion Y; subst. unfold sc_try. destruct (negb (sc_alive x)); [exact C|]. destruct (blen (sc_cmds x) <? CMD_CAP); exact C.
    + inversion Y; subst. exact C.
Qed.
