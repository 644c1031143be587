(** The write halves of the publisher's and the subscriber's connections. *)
From Coq Require Import ZArith ZifyBool ZifyNat ZifyN.
From Verif Require Import Model.Base Model.Map Model.Framed Model.FramedWrite Model.WireReqRep Model.WirePubSub Model.Compression
  Model.Backoff Model.Trie Model.Utf8 Model.ReqDriver Model.RepDriver Model.PubDriver Model.SubDriver Model.Writers
  Spec.WriteSpec Spec.Stream Proofs.BaseP Proofs.FramedP Proofs.FramedWriteP Proofs.WritersP.

Definition pencs (l : list ps_msg) : bytes := concat (map ps_encode l).
Lemma pencs_app a b : pencs (a ++ b) = pencs a ++ pencs b.
Proof. unfold pencs. rewrite map_app, concat_app. reflexivity. Qed.
Lemma pencs_send m w : total (fw_send ps_encode m w) = total w ++ pencs [m].
Proof. unfold total, fw_send, pencs. cbn [fw_buf fw_out map concat]. rewrite app_nil_r, app_assoc. reflexivity. Qed.
Lemma pub_frames_app a b : pub_frames (a ++ b) = pub_frames a ++ pub_frames b.
Proof. apply flat_map_app. Qed.
Lemma sub_frames_app a b : sub_frames (a ++ b) = sub_frames a ++ sub_frames b.
Proof. apply flat_map_app. Qed.

(** ** Publisher *)
Section Pub.
Variables (buf bd : N).
Definition scovered (s : sess) (w : fw) : Prop := fw_buf w = [] \/ sn_flush s = true.

Definition opt {A} (x : option A) : list A := match x with Some a => [a] | None => [] end.
Lemma sess_sends cid e hist closed s s' dtx o r : s_send e = true -> sn_iter buf cid e hist closed s = (s', dtx, o, r) ->
  pub_frames o = opt (if s_ready e then sn_pending s else None) /\
  sn_flush s' = (match (if s_ready e then sn_pending s else None) with None => sn_flush s && negb (s_tick e && s_flush_ok e) | _ => true end) /\
  (r = SPend -> (if s_ready e then sn_pending s else None) = None).
Proof using.
  intros Se. unfold sn_iter. set (fl := if sn_flush s && s_tick e && s_flush_ok e then false else sn_flush s).
  assert (F : fl = (sn_flush s && negb (s_tick e && s_flush_ok e))) by (unfold fl; destruct (sn_flush s), (s_tick e), (s_flush_ok e); reflexivity).
  rewrite <- F. clearbody fl. clear F. cbn [sn_pending sn_seq sn_pos sn_filter sn_flush].
  destruct (s_ready e); [|intros H; inversion H; subst; auto].
  destruct (sn_pending s) as [m|].
  - rewrite Se. intros H; inversion H; subst. cbn. split; [reflexivity|]. split; [reflexivity|discriminate].
  - destruct (bcast_recv (bcast_cap buf) (sn_pos s) (blen hist) closed).
    + destruct (nth_error hist (N.to_nat (sn_pos s))) as [p|]; [|intros H; inversion H; subst; auto].
      destruct (trie_contains (sn_filter s) (pm_topic p)); [|intros H; inversion H; subst; cbn; auto].
      destruct (pub_into_wire (s_now e) (sn_seq s) (pm_topic p) (pm_body p)); intros H; inversion H; subst; cbn; auto.
    + intros H; inversion H; subst; cbn; auto.
    + destruct (s_next e); intros H; inversion H; subst; cbn; auto.
    + intros H; inversion H; subst; cbn; auto.
Qed.

Lemma sw_iter_spec cid e a hist closed s w s' w' o r : sw_iter buf bd cid e a hist closed s w = (s', w', o, r) ->
  (forall acc, total w = pencs acc -> total w' = pencs (acc ++ pub_frames o)) /\
  (scovered s w -> scovered s' w') /\
  (r = SPend -> scovered s w -> fw_buf w' = [] \/ s_tick e = false \/ snd (fst (fw_flush w (wa_flush a))) <> WReady) /\
  (forall big, no_write_error a -> (forall m, In m (pub_frames o) -> blen (ps_encode m) <= big) ->
     blen (fw_buf w) <= (bd - 1) + big -> blen (fw_buf w') <= (bd - 1) + big).
Proof using.
  unfold sw_iter. destruct (if sn_flush s && s_tick e then fst (fw_flush w (wa_flush a)) else (w, WPending)) as [w1 r1] eqn:E1.
  destruct (fw_ready bd w1 (wa_ready a)) as [[w2 r2] ax] eqn:E2. cbn [fst].
  set (w3 := match (if is_ready r2 then sn_pending s else None) with None => w2 | Some m => fw_send ps_encode m w2 end).
  destruct (sn_iter buf cid (mkSenv (s_tick e) (is_ok r1) (is_ready r2) true (s_now e) (s_next e)) hist closed s) as [[[s0 dtx] o0] r0] eqn:It.
  intros H; inversion H; subst s0 w' o0 r0; clear H. apply sess_sends in It as (Fr & Fl & Pe); [|reflexivity]. cbn [s_ready s_flush_ok s_tick] in *.
  set (eg := if is_ready r2 then sn_pending s else None) in *.
  assert (P1 : total w1 = total w /\ (is_ok r1 = true -> fw_buf w1 = []) /\ (length (fw_buf w1) <= length (fw_buf w))%nat).
  { destruct (sn_flush s && s_tick e).
    - destruct (fw_flush w (wa_flush a)) as [[wx rx] ax'] eqn:F. cbn [fst] in E1. inversion E1; subst. apply flush_total in F as (T & K & _ & L).
      split; [exact T|]. split; [|exact L]. destruct r1; try discriminate. auto.
    - inversion E1; subst. split; [reflexivity|]. split; [discriminate|auto]. }
  pose proof E2 as G2. apply ready_total in E2 as (T2 & _ & L2 & K2). destruct P1 as (T1 & F1 & L1).
  assert (EM : scovered s w -> fw_buf w2 = [] \/ sn_flush s && negb (s_tick e && is_ok r1) = true).
  { intros CV. assert (X : fw_buf w1 = [] \/ sn_flush s && negb (s_tick e && is_ok r1) = true).
    { destruct CV as [CV|CV]; [left; rewrite CV in L1; destruct (fw_buf w1); [reflexivity|cbn in L1; lia]|]. rewrite CV. destruct (s_tick e); [|right; reflexivity]. destruct (is_ok r1) eqn:OK; [left; auto|right; reflexivity]. }
    destruct X as [X|X]; [left|right; exact X]. rewrite X in L2. destruct (fw_buf w2); [reflexivity|cbn in L2; lia]. }
  split; [|split; [|split]].
  - intros acc T. rewrite Fr, pencs_app. unfold w3. fold eg. destruct eg as [m|]; cbn [opt].
    + rewrite pencs_send, T2, T1, T. reflexivity.
    + cbn [pencs map concat]. rewrite app_nil_r. congruence.
  - intros CV. unfold scovered. rewrite Fl. unfold w3. fold eg. destruct eg as [m|]; [right; reflexivity|]. exact (EM CV).
  - intros Pc CV. specialize (Pe Pc). unfold w3. fold eg. rewrite Pe. destruct (EM CV) as [X|X]; [left; exact X|right].
    destruct (sn_flush s); [|discriminate]. destruct (s_tick e); [|left; reflexivity]. right. cbn [andb] in *. destruct (fw_flush w (wa_flush a)) as [[wx rx] ax']. cbn [fst snd] in *. inversion E1; subst.
    destruct r1; [discriminate|discriminate|discriminate].
  - intros big NE BIG B. assert (N2 : r2 <> WFail). { eapply ready_no_error; [|exact G2]. intros x I. apply NE. unfold answers. apply in_or_app. right. apply in_or_app. left. exact I. }
    rewrite Fr in BIG. unfold w3. fold eg. destruct eg as [m|] eqn:EG; [|unfold blen in *; lia].
    specialize (BIG m (or_introl eq_refl)). unfold eg in EG. destruct r2; [|discriminate|contradiction]. unfold fw_send. cbn [fw_buf]. unfold blen in *. rewrite app_length.
    destruct (K2 eq_refl) as [X|X]; [rewrite X; cbn [length]|]; lia.
Qed.

Lemma sw_run_spec cid l : forall s w s' w' o r, sw_run buf bd cid s w l = (s', w', o, r) ->
  (forall acc, total w = pencs acc -> total w' = pencs (acc ++ pub_frames o)) /\
  (scovered s w -> scovered s' w') /\
  (forall big, (forall i, In i l -> no_write_error (si_wans i)) -> (forall m, In m (pub_frames o) -> blen (ps_encode m) <= big) ->
     blen (fw_buf w) <= (bd - 1) + big -> blen (fw_buf w') <= (bd - 1) + big).
Proof using.
  induction l as [|i l IH]; intros s w s' w' o r; cbn [sw_run].
  - intros H; inversion H; subst. cbn. split; [intros acc; rewrite app_nil_r; auto|]. auto.
  - destruct (sw_iter buf bd cid (si_env i) (si_wans i) (si_hist i) (si_closed i) s w) as [[[s1 w1] o1] r1] eqn:It.
    apply sw_iter_spec in It as (T1 & C1 & _ & B1).
    assert (STOP : (s1, w1, o1, Some r1) = (s', w', o, r) ->
      (forall acc, total w = pencs acc -> total w' = pencs (acc ++ pub_frames o)) /\ (scovered s w -> scovered s' w') /\
      (forall big, (forall i0, In i0 (i :: l) -> no_write_error (si_wans i0)) -> (forall m, In m (pub_frames o) -> blen (ps_encode m) <= big) ->
       blen (fw_buf w) <= (bd - 1) + big -> blen (fw_buf w') <= (bd - 1) + big)).
    { intros H; inversion H; subst. split; [exact T1|]. split; [exact C1|]. intros big NE. apply B1, NE. left; reflexivity. }
    destruct (sw_run buf bd cid s1 w1 l) as [[[s2 w2] o2] r2] eqn:R. destruct (IH _ _ _ _ _ _ R) as (T2 & C2 & B2). clear IH.
    assert (GO : (s2, w2, o1 ++ o2, match r2 with None => Some r1 | Some _ => r2 end) = (s', w', o, r) ->
      (forall acc, total w = pencs acc -> total w' = pencs (acc ++ pub_frames o)) /\ (scovered s w -> scovered s' w') /\
      (forall big, (forall i0, In i0 (i :: l) -> no_write_error (si_wans i0)) -> (forall m, In m (pub_frames o) -> blen (ps_encode m) <= big) ->
       blen (fw_buf w) <= (bd - 1) + big -> blen (fw_buf w') <= (bd - 1) + big)).
    { intros H; inversion H; subst. split; [intros acc T; rewrite pub_frames_app, app_assoc; auto|]. split; [auto|]. rewrite pub_frames_app. intros big NE BIG B.
      apply B2; [intros j J; apply NE; right; exact J|intros m I; apply BIG, in_or_app; right; exact I|].
      apply B1; [apply NE; left; reflexivity|intros m I; apply BIG, in_or_app; left; exact I|exact B]. }
    destruct r1; auto.
Qed.
End Pub.

(** ** Subscriber *)
Section Sub.
Lemma yw_send_spec m ans w w' a : yw_send m ans w = (w', a) ->
  total w' = total w ++ (match a with SaOk => pencs [m] | _ => [] end) /\
  (forall big, blen (ps_encode m) <= big -> blen (fw_buf w) <= (default_boundary - 1) + big -> blen (fw_buf w') <= (default_boundary - 1) + big) /\
  (a <> SaOk -> (length (fw_buf w') <= length (fw_buf w))%nat).
Proof using.
  unfold yw_send. destruct (fw_ready default_boundary w ans) as [[w1 r] ax] eqn:E. cbn [fst]. apply ready_total in E as (T & _ & L & K).
  destruct r; intros H; inversion H; subst.
  - rewrite pencs_send, T. split; [reflexivity|]. split; [|congruence]. intros big Bm B. unfold fw_send. cbn [fw_buf]. unfold blen in *. rewrite app_length.
    destruct (K eq_refl) as [X|X]; [rewrite X; cbn [length]|]; lia.
  - rewrite app_nil_r. split; [exact T|]. split; [|auto]. intros; unfold blen in *; lia.
  - rewrite app_nil_r. split; [exact T|]. split; [|auto]. intros; unfold blen in *; lia.
Qed.

Lemma yw_sends_spec cid eg : forall ans w w' l, yw_sends eg ans w = (w', l) ->
  match eg_loop cid eg l with (eg', o, pr, f) =>
    total w' = total w ++ pencs (sub_frames o) /\
    (forall big, (forall m, In m eg -> blen (ps_encode m) <= big) -> blen (fw_buf w) <= (default_boundary - 1) + big -> blen (fw_buf w') <= (default_boundary - 1) + big) /\
    (f = false -> (length (fw_buf w') <= length (fw_buf w))%nat)
  end.
Proof using.
  induction eg as [|m eg IH]; intros ans w w' l; cbn [yw_sends].
  - intros H; inversion H; subst. cbn. rewrite app_nil_r. auto.
  - destruct (yw_send m (hd [] ans) w) as [w1 a] eqn:S1. apply yw_send_spec in S1 as (T1 & B1 & L1).
    destruct a.
    + destruct (yw_sends eg (tl ans) w1) as [w2 l2] eqn:R. intros H; inversion H; subst. cbn [eg_loop]. specialize (IH _ _ _ _ R).
      destruct (eg_loop cid eg l2) as [[[e' o] pr] f]. destruct IH as (T2 & B2 & L2). split; [|split; [|discriminate]].
      * rewrite T2, T1. change (UWire cid m true :: o) with ([UWire cid m true] ++ o). rewrite sub_frames_app, pencs_app, app_assoc. reflexivity.
      * intros big BIG B. apply B2; [intros x I; apply BIG; right; exact I|]. apply B1; [apply BIG; left; reflexivity|exact B].
    + destruct (yw_sends eg (tl ans) w1) as [w2 l2] eqn:R. intros H; inversion H; subst. cbn [eg_loop]. specialize (IH _ _ _ _ R).
      destruct (eg_loop cid eg l2) as [[[e' o] pr] f]. destruct IH as (T2 & B2 & L2). split; [|split].
      * rewrite T2, T1, app_nil_r. reflexivity.
      * intros big BIG B. apply B2; [intros x I; apply BIG; right; exact I|]. apply B1; [apply BIG; left; reflexivity|exact B].
      * intros F. specialize (L2 F). specialize (L1 ltac:(discriminate)). lia.
    + intros H; inversion H; subst. cbn [eg_loop]. split; [|split].
      * exact T1.
      * intros big BIG B. apply B1; [apply BIG; left; reflexivity|exact B].
      * intros _. apply L1. discriminate.
Qed.

Definition ycovered (x : sconn) (w : fw) : Prop := fw_buf w = [] \/ sc_flush x = true.
Definition tamed (big : N) (m : ps_msg) : Prop := blen (ps_encode m) <= big.

Lemma eg_loop_in cid eg : forall l e' o pr f, eg_loop cid eg l = (e', o, pr, f) ->
  (forall m, In m e' -> In m eg) /\ (forall m, In m (sub_frames o) -> In m eg) /\ (pr = false -> f = false).
Proof using.
  induction eg as [|m eg IH]; intros l e' o pr f; cbn [eg_loop].
  - intros H; inversion H; subst. auto.
  - destruct l as [|[| |] l].
    + intros H; inversion H; subst. split; [|split; [intros ? []|auto]]. intros x I. apply in_app_or in I as [I|[<-|[]]]; [right; exact I|left; reflexivity].
    + destruct (eg_loop cid eg l) as [[[e1 o1] p1] f1] eqn:R. intros H; inversion H; subst. apply IH in R as (A & B & _). split; [intros x I; right; auto|]. split; [|discriminate].
      intros x [<-|I]; [left; reflexivity|right; auto].
    + destruct (eg_loop cid eg l) as [[[e1 o1] p1] f1] eqn:R. intros H; inversion H; subst. apply IH in R as (A & B & _). split; [intros x I; right; auto|]. split; [|discriminate].
      intros x I. right. apply B. exact I.
    + intros H; inversion H; subst. split; [|split; [intros ? []|auto]]. intros x I. apply in_app_or in I as [I|[<-|[]]]; [right; exact I|left; reflexivity].
Qed.

Lemma yw_iter_spec cid e fl se x w x' w' o r : yw_iter cid e fl se x w = (x', w', o, r) ->
  (forall acc, total w = pencs acc -> total w' = pencs (acc ++ sub_frames o)) /\
  ((forall rr, snd (fst (fw_flush w fl)) = rr -> rr <> WFail) -> ycovered x w -> ycovered x' w') /\
  (r = SPend -> ycovered x w -> fw_buf w' = [] \/ snd (fst (fw_flush w fl)) <> WReady) /\
  (forall big, (forall m, In m (sc_egress x) -> blen (ps_encode m) <= big) ->
     blen (fw_buf w) <= (default_boundary - 1) + big -> blen (fw_buf w') <= (default_boundary - 1) + big).
Proof using.
  unfold yw_iter. destruct (if sc_flush x then fst (fw_flush w fl) else (w, WPending)) as [w1 r1] eqn:E1.
  assert (P1 : total w1 = total w /\ (is_ok r1 = true -> fw_buf w1 = []) /\ (length (fw_buf w1) <= length (fw_buf w))%nat).
  { destruct (sc_flush x).
    - destruct (fw_flush w fl) as [[wx rx] ax'] eqn:F. cbn [fst] in E1. inversion E1; subst. apply flush_total in F as (T & K & _ & L).
      split; [exact T|]. split; [|exact L]. destruct r1; try discriminate. auto.
    - inversion E1; subst. split; [reflexivity|]. split; [discriminate|auto]. }
  destruct P1 as (T1 & F1 & L1).
  destruct (match y_next e with PnEof | PnPending => yw_sends (sc_egress x) se w1 | _ => (w1, []) end) as [w2 l] eqn:E2.
  unfold ss_iter. cbn [y_flush y_next y_sends y_now].
  set (f0 := if sc_flush x && is_ready r1 then false else sc_flush x).
  assert (EM : (forall rr, snd (fst (fw_flush w fl)) = rr -> rr <> WFail) -> ycovered x w -> fw_buf w1 = [] \/ f0 = true).
  { intros NF CV. unfold f0. destruct CV as [CV|CV]; [left; rewrite CV in L1; destruct (fw_buf w1); [reflexivity|cbn in L1; lia]|]. rewrite CV in *. cbn [andb].
    specialize (NF _ eq_refl). destruct (fw_flush w fl) as [[wx rx] ax']. cbn [fst snd] in *. inversion E1; subst. destruct r1; [left; auto|right; reflexivity|contradiction]. }
  assert (EM2 : ycovered x w -> fw_buf w1 = [] \/ snd (fst (fw_flush w fl)) <> WReady).
  { intros CV. destruct CV as [CV|CV]; [left; rewrite CV in L1; destruct (fw_buf w1); [reflexivity|cbn in L1; lia]|]. rewrite CV in *.
    destruct (fw_flush w fl) as [[wx rx] ax']. cbn [fst snd] in *. inversion E1; subst. destruct r1; [left; auto|right; discriminate|right; discriminate]. }
  assert (PASS : forall sx ox rx, ((sx, ox, rx) : sconn * list uout * sres) = (sx, ox, rx) -> w2 = w1 -> sub_frames ox = [] -> sc_flush sx = f0 -> rx <> SPend ->
     (sx, w2, ox, rx) = (x', w', o, r) ->
     (forall acc, total w = pencs acc -> total w' = pencs (acc ++ sub_frames o)) /\
     ((forall rr, snd (fst (fw_flush w fl)) = rr -> rr <> WFail) -> ycovered x w -> ycovered x' w') /\
     (r = SPend -> ycovered x w -> fw_buf w' = [] \/ snd (fst (fw_flush w fl)) <> WReady) /\
     (forall big, (forall m, In m (sc_egress x) -> blen (ps_encode m) <= big) -> blen (fw_buf w) <= (default_boundary - 1) + big -> blen (fw_buf w') <= (default_boundary - 1) + big)).
  { intros sx ox rx _ W SF Fx NP H. inversion H; subst. rewrite SF. split; [intros acc T; rewrite app_nil_r; congruence|]. split; [unfold ycovered at 2; rewrite Fx; auto|].
    split; [intros; contradiction|]. intros big _ B. unfold blen in *. lia. }
  assert (MAIN : yw_sends (sc_egress x) se w1 = (w2, l) -> forall Y,
    Y = (let '(eg, o, progress, f) := eg_loop cid (sc_egress (sc_set_egress x (sc_egress x) f0)) l in
       let x := sc_set_egress (sc_set_egress x (sc_egress x) f0) eg (f || f0) in
       if progress then (x, o, SCont)
       else match sc_cmds x with
       | c :: cs => match cmd_frame (y_now e) c with
         | Some m => (sc_set_cmds (sc_set_egress x (eg ++ [m]) (f || f0)) cs, o ++ [UGot cid c], SCont)
         | None => (sc_finish x, o ++ [UGot cid c; UCrash cid], SCrash) end
       | [] => if sc_held x then (x, o, SPend) else (sc_finish x, o ++ [UEnd cid], SDone) end) ->
     match Y with (x0, o0, r0) => (x0, w2, o0, r0) end = (x', w', o, r) ->
     (forall acc, total w = pencs acc -> total w' = pencs (acc ++ sub_frames o)) /\
     ((forall rr, snd (fst (fw_flush w fl)) = rr -> rr <> WFail) -> ycovered x w -> ycovered x' w') /\
     (r = SPend -> ycovered x w -> fw_buf w' = [] \/ snd (fst (fw_flush w fl)) <> WReady) /\
     (forall big, (forall m, In m (sc_egress x) -> blen (ps_encode m) <= big) -> blen (fw_buf w) <= (default_boundary - 1) + big -> blen (fw_buf w') <= (default_boundary - 1) + big)).
  { intros S Y -> H. apply (yw_sends_spec cid) in S. cbn [sc_set_egress sc_egress sc_cmds sc_held] in H. destruct (eg_loop cid (sc_egress x) l) as [[[eg o1] pr] f] eqn:EL.
    apply eg_loop_in in EL as (_ & _ & PF). destruct S as (T2 & B2 & L2).
    assert (Z : w' = w2 /\ sub_frames o = sub_frames o1 /\ sc_flush x' = (f || f0) /\ (r = SPend -> pr = false)).
    { destruct pr; [inversion H; subst; repeat split; discriminate|].
      destruct (sc_cmds x) as [|c cs]; [destruct (sc_held x)|destruct (cmd_frame (y_now e) c)]; inversion H; subst; rewrite ?sub_frames_app; cbn [sub_frames flat_map app]; rewrite ?app_nil_r; repeat split; auto; discriminate. }
    destruct Z as (-> & Z2 & Z3 & Z4). rewrite Z2. split; [|split; [|split]].
    - intros acc T. rewrite T2, T1, T, pencs_app. reflexivity.
    - intros NF CV. unfold ycovered. rewrite Z3. destruct f; [right; reflexivity|]. destruct (EM NF CV) as [X|X]; [left|right; exact X].
      specialize (L2 eq_refl). rewrite X in L2. destruct (fw_buf w2); [reflexivity|cbn in L2; lia].
    - intros P CV. specialize (PF (Z4 P)). destruct (EM2 CV) as [X|X]; [left|right; exact X]. specialize (L2 PF). rewrite X in L2. destruct (fw_buf w2); [reflexivity|cbn in L2; lia].
    - intros big BIG B. apply B2; [exact BIG|]. unfold blen in *. lia. }
  destruct (y_next e) as [m| | |].
  - inversion E2; subst. destruct (ss_incoming cid (y_now e) m (sc_set_egress x (sc_egress x) f0)) as [x1 o1] eqn:I. apply (PASS x1 o1 SCont eq_refl eq_refl); [| |discriminate].
    + unfold ss_incoming in I. destruct (negb _); [inversion I; reflexivity|]. destruct (_ <? _); inversion I; reflexivity.
    + unfold ss_incoming in I. destruct (negb _); [inversion I; reflexivity|]. destruct (_ <? _); inversion I; reflexivity.
  - inversion E2; subst. apply (PASS (sc_set_egress x (sc_egress x) f0) [URecvErr cid] SCont eq_refl eq_refl eq_refl eq_refl ltac:(discriminate)).
  - apply (MAIN E2 _ eq_refl).
  - apply (MAIN E2 _ eq_refl).
Qed.

(** The session's queue holds only the frames of its commands. *)
Definition cmd_tamed (big : N) (c : sess_cmd) : Prop := forall now m, cmd_frame now c = Some m -> blen (ps_encode m) <= big.
Lemma yw_iter_queue cid e fl se x w x' w' o r big : yw_iter cid e fl se x w = (x', w', o, r) ->
  (forall m, In m (sc_egress x) -> blen (ps_encode m) <= big) -> (forall c, In c (sc_cmds x) -> cmd_tamed big c) ->
  (forall m, In m (sc_egress x') -> blen (ps_encode m) <= big) /\ (forall c, In c (sc_cmds x') -> cmd_tamed big c).
Proof using.
  intros H E C. unfold yw_iter in H. destruct (if sc_flush x then fst (fw_flush w fl) else (w, WPending)) as [w1 r1].
  destruct (match y_next e with PnEof | PnPending => yw_sends (sc_egress x) se w1 | _ => (w1, []) end) as [w2 l].
  unfold ss_iter in H. cbn [y_flush y_next y_sends y_now] in H. set (f0 := if sc_flush x && is_ready r1 then false else sc_flush x) in *.
  assert (MAIN : match (let '(eg, o, progress, f) := eg_loop cid (sc_egress (sc_set_egress x (sc_egress x) f0)) l in
       let x := sc_set_egress (sc_set_egress x (sc_egress x) f0) eg (f || f0) in
       if progress then (x, o, SCont)
       else match sc_cmds x with
       | c :: cs => match cmd_frame (y_now e) c with
         | Some m => (sc_set_cmds (sc_set_egress x (eg ++ [m]) (f || f0)) cs, o ++ [UGot cid c], SCont)
         | None => (sc_finish x, o ++ [UGot cid c; UCrash cid], SCrash) end
       | [] => if sc_held x then (x, o, SPend) else (sc_finish x, o ++ [UEnd cid], SDone) end) with (x0, o0, r0) => (x0, w2, o0, r0) end = (x', w', o, r) ->
     (forall m, In m (sc_egress x') -> blen (ps_encode m) <= big) /\ (forall c, In c (sc_cmds x') -> cmd_tamed big c)).
  { clear H. intros H. cbn [sc_set_egress sc_egress sc_cmds sc_held] in H. destruct (eg_loop cid (sc_egress x) l) as [[[eg o1] pr] f] eqn:EL. apply eg_loop_in in EL as (A & _ & _).
    destruct pr; [inversion H; subst; cbn [sc_egress sc_cmds]; auto|].
    destruct (sc_cmds x) as [|c cs] eqn:SC; [destruct (sc_held x); inversion H; subst; cbn [sc_egress sc_cmds sc_finish sc_set_egress]; rewrite ?SC; (split; [intros z I; try contradiction; auto|intros z I; try contradiction; auto])|].
    destruct (cmd_frame (y_now e) c) as [m|] eqn:CF; inversion H; subst; cbn [sc_egress sc_cmds sc_finish sc_set_cmds sc_set_egress].
    - split; [|intros c' I; apply C; right; exact I]. intros z I. apply in_app_or in I as [I|[<-|[]]]; [auto|]. eapply C; [left; reflexivity|exact CF].
    - split; intros ? []. }
  destruct (y_next e) as [m| | |]; try exact (MAIN H).
  - unfold ss_incoming in H. destruct (negb _); [inversion H; subst; auto|]. destruct (_ <? _); inversion H; subst; auto.
  - inversion H; subst; auto.
Qed.

Lemma yw_run_spec cid big l : forall x w x' w' o, yw_run cid x w l = (x', w', o) ->
  (forall acc, total w = pencs acc -> total w' = pencs (acc ++ sub_frames o)) /\
  ((forall c, In (YwCmd c) l -> cmd_tamed big c) -> (forall m, In m (sc_egress x) -> blen (ps_encode m) <= big) -> (forall c, In c (sc_cmds x) -> cmd_tamed big c) ->
   blen (fw_buf w) <= (default_boundary - 1) + big -> blen (fw_buf w') <= (default_boundary - 1) + big).
Proof using.
  induction l as [|ev l IH]; intros x w x' w' o; cbn [yw_run].
  - intros H; inversion H; subst. cbn. split; [intros acc; rewrite app_nil_r; auto|]. auto.
  - set (y := match ev with YwIter e fl se => _ | YwCmd c => _ | YwRelease => _ end). destruct y as [[x1 w1] o1] eqn:Y.
    destruct (yw_run cid x1 w1 l) as [[x2 w2] o2] eqn:R. intros H; inversion H; subst. destruct (IH _ _ _ _ _ R) as (T2 & B2).
    assert (S1 : (forall acc, total w = pencs acc -> total w1 = pencs (acc ++ sub_frames o1)) /\
      ((forall c, ev = YwCmd c -> cmd_tamed big c) -> (forall m, In m (sc_egress x) -> blen (ps_encode m) <= big) -> (forall c, In c (sc_cmds x) -> cmd_tamed big c) ->
       blen (fw_buf w) <= (default_boundary - 1) + big ->
       (forall m, In m (sc_egress x1) -> blen (ps_encode m) <= big) /\ (forall c, In c (sc_cmds x1) -> cmd_tamed big c) /\ blen (fw_buf w1) <= (default_boundary - 1) + big)).
    { unfold y in Y. destruct ev as [e fl se|c|].
      - destruct (sc_alive x).
        + destruct (yw_iter cid e fl se x w) as [[[xa wa] oa] ra] eqn:It. inversion Y; subst. pose proof It as Q. apply yw_iter_spec in It as (T1 & _ & _ & B1). split; [exact T1|].
          intros _ E C B. destruct (yw_iter_queue _ _ _ _ _ _ _ _ _ _ big Q E C) as [A1 A2]. auto.
        + inversion Y; subst. split; [intros acc; cbn; rewrite app_nil_r; auto|]. auto.
      - inversion Y; subst. split; [intros acc; cbn; rewrite app_nil_r; auto|]. intros TC E C B. unfold sc_try. destruct (negb (sc_alive x)); [auto|]. destruct (blen (sc_cmds x) <? CMD_CAP); [|auto].
        cbn [fst sc_set_cmds sc_egress sc_cmds]. split; [exact E|]. split; [|exact B]. intros c' I. apply in_app_or in I as [I|[<-|[]]]; [auto|]. apply TC; reflexivity.
      - inversion Y; subst. split; [intros acc; cbn; rewrite app_nil_r; auto|]. cbn. auto. }
    destruct S1 as [T1 B1]. split; [intros acc T; rewrite sub_frames_app, app_assoc; auto|]. intros TC E C B.
    destruct B1 as (B1 & B3 & B4); auto. { intros c ->. apply TC. left; reflexivity. } apply B2; auto. intros c I. apply TC. right; exact I.
Qed.
End Sub.
