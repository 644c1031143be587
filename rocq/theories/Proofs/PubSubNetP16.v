(** The joint model of a subscriber and a publisher socket: every event in which somebody does his part brings rest nearer or changes nothing that matters. *)
From Coq Require Import ZArith Permutation Sorting.Sorted.
From Verif Require Import Model.Base Model.Map Model.Framed Model.WirePubSub Model.WireAuth Model.Compression Model.Handshake Model.JoinMap Model.Backoff Model.Trie Model.PubDriver Model.SubDriver Model.Net Model.PubSubNet
  Spec.Wire Spec.Stream Spec.CompressSpec Spec.PubSpec Spec.SubSpec Spec.NetSpec2 Spec.NetSpec6 Spec.NetSpec8
  Proofs.BaseP Proofs.MapP Proofs.FramedP Proofs.FramedP2 Proofs.PubSubP Proofs.NetP Proofs.PubSubNetP Proofs.PubNetP Proofs.SubNetP Proofs.PubSubNetP2 Proofs.PubSubNetP3 Proofs.PubSubNetP5 Proofs.PubSubNetP6 Proofs.PubSubNetP7 Proofs.PubSubNetP10 Proofs.PubSubNetP11 Proofs.PubSubNetP12 Proofs.PubSubNetP13.
From Verif Require Proofs.PubDriverP Proofs.PubDriverP2 Proofs.PubDriverP4 Proofs.SubDriverP Proofs.SubDriverP2 Proofs.SubDriverP4 Proofs.ReqRepNetP15.
Local Open Scope N_scope.

(** ** Reading, in pieces of any size *)
Lemma poll_data a b i : pdir a b -> Forall ps_wf (en_sent a) -> en_hs b = en_greet a -> J (en_fr b) -> sound (en_fr b) -> data_only i -> pipe_offers i (en_in b) = true ->
  exists r b', ps_poll i b = (r, b') /\ sound (en_fr b') /\ en_sent b' = en_sent b /\
    ((r = PPending /\ en_items b' = en_items b /\ (length (pp_todo (en_in b')) + length (io_data i) = length (pp_todo (en_in b)))%nat /\
      (pp_todo (en_in b') = [] -> en_items b = en_sent a)) \/
     (exists m rest, r = PItem m /\ en_items b' = en_items b ++ [m] /\ en_sent a = en_items b ++ m :: rest)).
Proof.
  intros R W H Jb G Di Of. destruct (dir_items a b R W (or_introl H)) as [rest E]. pose proof R as (D1 & D2 & D3 & D4).
  assert (B : ps_held (fr_codec (en_fr b)) ++ fr_buf (en_fr b) ++ pp_todo (en_in b) = pencs rest).
  { rewrite D3, H, <- !app_assoc in D1. apply app_inv_head in D1. rewrite E, encs_app in D1. apply app_inv_head in D1. exact D1. }
  assert (Wr : Forall ps_wf rest) by (rewrite E in W; apply Forall_app in W; apply W).
  assert (Se : stream ps_decode PSHeader (pencs rest) rest (TMore PSHeader [])).
  { pose proof (ps_stream_app rest [] [] (TMore PSHeader []) Wr) as X. rewrite !app_nil_r in X. apply X. apply st_more. reflexivity. }
  pose proof Of as Of'. unfold pipe_offers in Of'. apply prefixb_ok in Of'. destruct Of' as (tl & Et).
  assert (St : stream ps_decode (fr_codec (en_fr b)) (fr_buf (en_fr b) ++ pp_todo (en_in b)) rest (TMore PSHeader [])).
  { eapply stream_eqv; [apply ps_held_decode; exact D2|]. rewrite B. exact Se. }
  destruct G as (G1 & G2). pose proof Jb as [J1 J2].
  assert (G3 : fr_readable (en_fr b) = false -> ps_decode (fr_codec (en_fr b)) (fr_buf (en_fr b)) = DNone (fr_codec (en_fr b)) (fr_buf (en_fr b))).
  { intros Rd. destruct (J2 (or_introl Rd)) as [K|(e & K)]; [exact K|]. exfalso. pose proof (ps_decode_spec _ (fr_buf (en_fr b)) J1) as Sp. rewrite K in Sp. destruct Sp as (_ & _ & _ & Sp & _). specialize (Sp (pp_todo (en_in b))).
    inversion St; subst; congruence. }
  assert (I0 : Inv ps_decode ps_ok (en_fr b) (i ++ ReqRepNetP15.data_io tl) rest (TMore PSHeader [])).
  { split; [exact J1|]. split; [exact G1|]. split; [exact G2|]. split; [|split; [|exact G3]].
    - apply Forall_app; split; [|destruct tl; constructor; [exact I|constructor]]. apply Forall_forall. intros x Hx. destruct (Di x Hx) as (b0 & t0 & ->). exact I.
    - rewrite ReqRepNetP15.received_app, ReqRepNetP15.data_io_received. change (received i) with (io_data i). rewrite <- Et. exact St. }
  pose proof (poll_inv ps_decode PSIo ps_ok ps_w ps_incremental (i ++ ReqRepNetP15.data_io tl) (en_fr b) rest _ StillOpen I0) as P. cbn [ending_io] in P. rewrite !app_nil_r in P.
  destruct (ps_poll i b) as [r b'] eqn:Pl. exists r, b'. split; [reflexivity|].
  pose proof (end_poll_J _ _ _ _ Jb Pl) as Jb'.
  destruct (pdir_poll a b _ _ _ R Of Pl) as (Np & R' & It & Hh & Hg & Hs & _).
  pose proof Pl as Pl0. unfold ps_poll, end_poll in Pl. destruct (framed_poll ps_decode PSIo (en_fr b) i) as [[r0 f] i'] eqn:Fp. inversion Pl; subst r0 b'; clear Pl. cbn [en_items en_fr en_in] in *.
  pose proof (poll_sound i Di _ _ _ _ (conj G1 G2) Fp) as Gd.
  destruct r as [m|e| | |].
  - split; [exact Gd|]. split; [reflexivity|]. right. destruct (dir_items _ _ R' W) as [r2 E2]; [left; cbn; congruence|]. cbn [en_items] in E2. exists m, r2. split; [reflexivity|]. split; [reflexivity|]. rewrite E2, <- app_assoc. reflexivity.
  - exfalso. rewrite (ReqRepNetP15.poll_more _ _ (ReqRepNetP15.data_io tl) i _ _ _ _ Fp) in P by discriminate. destruct P as (X & ->). cbn in X. discriminate.
  - exfalso. rewrite (ReqRepNetP15.poll_more _ _ (ReqRepNetP15.data_io tl) i _ _ _ _ Fp) in P by discriminate. destruct P as (X & ->). cbn in X. discriminate.
  - split; [exact Gd|]. split; [reflexivity|]. left. split; [reflexivity|]. split; [apply app_nil_r|].
    assert (i' = []) by (eapply ReqRepNetP15.poll_pending_all; eauto). subst i'.
    pose proof (read_used i [] (en_in b)) as Ru. rewrite app_nil_r in Ru. destruct (Ru Of) as (_ & more & Em & Er). rewrite Er. cbn [pp_todo]. split; [rewrite Em, app_length; lia|].
    intros ->. assert (rest = []); [|subst rest; rewrite E, app_nil_r; reflexivity].
    rewrite app_nil_r in Em. destruct R' as (D1' & D2' & D3' & _). cbn [en_in en_fr en_hs en_items] in D1', D2', D3'. rewrite Er in D1', D3'. cbn [pp_done pp_todo] in D1', D3'. rewrite !app_nil_r in D1'.
    assert (B' : ps_held (fr_codec f) ++ fr_buf f = pencs rest).
    { rewrite D3', H, app_nil_r in D1'. apply app_inv_head in D1'. rewrite E, encs_app in D1'. apply app_inv_head in D1'. exact D1'. }
    assert (St' : stream ps_decode (fr_codec f) (fr_buf f) rest (TMore PSHeader [])). { eapply stream_eqv; [apply ps_held_decode; exact D2'|]. rewrite B'. exact Se. }
    apply pending_unreadable in Fp. destruct Jb' as [_ Jb']. destruct (Jb' (or_introl Fp)) as [K|(e & K)]; inversion St'; subst; congruence.
  - congruence.
Qed.

(** ** What is left to do, as numbers *)
Record core := mkCore { co_out : nat; co_in : nat; co_cmds : nat; co_eg : nat; co_un : nat; co_pend : nat; co_w1 : nat; co_w2 : nat }.
Definition core_of (z : zsys) (x : sconn) (y : sess) (k : plink) : core :=
  mkCore (length (sb_out (z_c z))) (length (sc_in x)) (length (sc_cmds x)) (length (sc_egress x))
    (length (pb_hist (z_s z)) - N.to_nat (sn_pos y)) (match sn_pending y with Some _ => 1 | None => 0 end)
    (length (en_sent (lk_s k)) - length (en_items (lk_c k))) (length (en_sent (lk_c k)) - length (en_items (lk_s k))).
Definition core_work (o : core) : nat := co_out o + 2 * co_in o + 3 * co_cmds o + 2 * co_eg o + 5 * co_un o + 4 * co_pend o + 3 * co_w1 o + co_w2 o.
Definition todo (k : plink) : nat := length (pp_todo (en_in (lk_c k))) + length (pp_todo (en_in (lk_s k))).
Definition kt (o : core) : Prop := co_out o <> 0%nat.
Definition ke (o : core) : Prop := co_in o <> 0%nat.
Definition kc (o : core) : Prop := (co_cmds o + co_eg o + co_w1 o <> 0)%nat.
Definition ks (o : core) : Prop := (co_un o + co_pend o + co_w2 o <> 0)%nat.
Definition strict (c d : N) (z : zsys) (o : core) (ev : zev) : Prop :=
  (ev = ZTake /\ kt o) \/ (driver_turn ev /\ ke o) \/ (sub_turn c z ev /\ kc o) \/ (pub_turn d z ev /\ ks o).

Definition better_by (o o' : core) (b b' : nat) : Prop := (core_work o' < core_work o \/ (core_work o' = core_work o /\ b' < b))%nat.

Lemma eg_some c eg : forall ans, (forall a, In a ans -> a = SaOk) -> exists eg' o pr f, eg_loop c eg ans = (eg', o, pr, f) /\
  Forall (fine_sub_busy c) o /\ received_on c o = [] /\ (length eg' + length (written_on c o) = length eg)%nat /\
  (pr = true -> (0 < length (written_on c o))%nat) /\ (pr = false -> (o = [] \/ o = [UBusy c]) /\ (eg = [] \/ ans = [])).
Proof.
  induction eg as [|m eg IH]; intros ans Ha.
  { exists [], [], false, false. cbn [eg_loop]. split; [reflexivity|]. split; [constructor|]. split; [reflexivity|]. split; [reflexivity|]. split; [discriminate|]. intros _. split; [left; reflexivity|left; reflexivity]. }
  destruct ans as [|a ans].
  { exists (eg ++ [m]), [UBusy c], false, false. cbn [eg_loop]. split; [reflexivity|]. split; [constructor; [right; reflexivity|constructor]|]. split; [reflexivity|]. split; [cbn [written_on flat_map app length]; rewrite app_length; cbn [length]; lia|]. split; [discriminate|]. intros _. split; [right; reflexivity|right; reflexivity]. }
  assert (a = SaOk) by (apply Ha; left; reflexivity). subst a.
  destruct (IH ans) as (eg' & o & pr & f & E & Fo & Ro & Ln & _ & _); [intros b Hb; apply Ha; right; exact Hb|].
  exists eg', (UWire c m true :: o), true, true. cbn [eg_loop]. rewrite E. split; [reflexivity|].
  split; [constructor; [left; reflexivity|exact Fo]|]. split; [exact Ro|].
  assert (Ew : written_on c (UWire c m true :: o) = m :: written_on c o) by (unfold written_on; cbn [flat_map]; destruct (eq_dec c c); [reflexivity|congruence]). rewrite Ew. cbn [length].
  split; [lia|]. split; [lia|discriminate].
Qed.

Lemma kept_refl c d z : kept c d z z.
Proof. constructor; try reflexivity; exists []; (split; [symmetry; apply app_nil_r|constructor]). Qed.
Lemma kept_trans c d a b e : kept c d a b -> kept c d b e -> kept c d a e.
Proof.
  intros [A1 A2 A3 A4 A5 A6 A7 A8 A9 A10 (o1 & A11 & F1) (p1 & A12 & G1)] [B1 B2 B3 B4 B5 B6 B7 B8 B9 B10 (o2 & B11 & F2) (p2 & B12 & G2)].
  constructor; try congruence.
  - intros c' H. rewrite B9, A9 by exact H. reflexivity.
  - intros c' H. rewrite B10, A10 by exact H. reflexivity.
  - exists (o1 ++ o2). rewrite B11, A11, app_assoc. split; [reflexivity|apply Forall_app; auto].
  - exists (p1 ++ p2). rewrite B12, A12, app_assoc. split; [reflexivity|apply Forall_app; auto].
Qed.

Section Z.
Variables (token : option bytes) (ingress initial : N) (D : decompressors)
          (max : option N) (buf min : N) (auth : option (bytes -> bool)) (co : option compressor).
Hypothesis TOK : forall t, token = Some t -> blen t < 2 ^ 32.
Notation step := (z_step token ingress initial D max buf min auth co).
Notation run := (z_run token ingress initial D max buf min auth co).
Notation cact := (sb_act token ingress initial D).
Notation sact := (pb_act max buf min auth co).
Notation fu := (first_unread buf).

Definition w1 (k : plink) : nat := length (en_sent (lk_s k)) - length (en_items (lk_c k)).
Definition w2 (k : plink) : nat := length (en_sent (lk_c k)) - length (en_items (lk_s k)).

Lemma sub_moves evs ev w z0 c' os k0 c d l k x y x' :
  Forall (input_fits co) evs -> input_fits co ev -> parts (run evs) c d l k x y ->
  step (run evs) ev = z_sub token ingress initial D w z0 ->
  z_c z0 = z_c (run evs) -> z_s z0 = z_s (run evs) -> z_ccids z0 = z_ccids (run evs) -> z_scids z0 = z_scids (run evs) -> z_clog z0 = z_clog (run evs) -> z_slog z0 = z_slog (run evs) ->
  mget l (z_links z0) = Some k0 -> unbroken k0 ->
  cact (z_c (run evs)) w = (c', os) ->
  sb_dropped c' = sb_dropped (z_c (run evs)) -> sb_pubs c' = sb_pubs (z_c (run evs)) -> sb_topics c' = sb_topics (z_c (run evs)) -> sb_cmdq c' = sb_cmdq (z_c (run evs)) ->
  (forall u, u <> c -> mget u (sb_conns c') = mget u (sb_conns (z_c (run evs)))) ->
  mget c (sb_conns c') = Some x' -> sc_alive x' = true -> sc_addr x' = sc_addr x ->
  Forall (fine_sub_busy c) os ->
  exists k', let z' := run (evs ++ [ev]) in parts z' c d l k' x' y /\ kept c d (run evs) z' /\ mget l (fold_left (c_route (z_ccids z0)) os (z_links z0)) = Some k' /\
    (w1 k' + length (received_on c os) = w1 k)%nat /\ (w2 k' = w2 k + length (written_on c os))%nat /\ z_s z' = z_s (run evs) /\ z_c z' = c'.
Proof using TOK.
  intros F Fe P St Z1 Z2 Z3 Z4 Z5 Z6 G0 U0 A D1 D2 D3 D4 D5 D6 D7 D8 Fo.
  pose proof (run_snoc token ingress initial D max buf min auth co evs ev) as E. rewrite St in E. unfold z_sub in E. rewrite Z1, A in E. set (z' := run (evs ++ [ev])) in *.
  destruct (view_get' _ _ _ _ _ (c_routes_frs (z_ccids z0) os (z_links z0)) G0) as (k' & G' & Ek).
  assert (F' : Forall (input_fits co) (evs ++ [ev])) by (apply Forall_app; split; [exact F|repeat constructor; exact Fe]).
  assert (P' : parts z' c d l k' x' y).
  { destruct P as [H1 H2 X1 X2 X3 Y K1 K2 K3 K4]. rewrite E. pose proof G' as G''. rewrite Z3 in G''. constructor; cbn [z_c z_s z_ccids z_scids z_links]; rewrite ?Z2, ?Z3, ?Z4, ?D1, ?D2, ?D8; try assumption. eapply unbroken_frs; eassumption. }
  exists k'. cbv zeta. split; [exact P'|]. split.
  - rewrite E. constructor; cbn [z_c z_s z_ccids z_scids z_links z_clog z_slog]; rewrite ?Z2, ?Z3, ?Z4, ?Z5, ?Z6; auto.
    + exists os. auto.
    + exists []. split; [symmetry; apply app_nil_r|constructor].
  - split; [exact G'|]. pose proof (lens token ingress initial D max buf min auth co TOK _ _ _ _ _ _ _ F P) as [L1 L2]. pose proof (lens token ingress initial D max buf min auth co TOK _ _ _ _ _ _ _ F' P') as [L3 L4].
    destruct (logs token ingress initial D max buf min auth co TOK _ _ _ _ _ _ _ F P) as (E1 & E2 & E3 & E4 & _). destruct (logs token ingress initial D max buf min auth co TOK _ _ _ _ _ _ _ F' P') as (E1' & E2' & E3' & E4' & _).
    fold z' in L3, L4, E1', E2', E3', E4'.
    assert (Q1 : z_clog z' = z_clog (run evs) ++ os) by (rewrite E; cbn [z_clog]; rewrite Z5; reflexivity).
    assert (Q2 : z_slog z' = z_slog (run evs)) by (rewrite E; cbn [z_slog]; exact Z6).
    unfold w1, w2. rewrite E1, E2, E3, E4, E1', E2', E3', E4'. rewrite Q1, Q2, rec_on_app, wok_on_app, !app_length in *.
    split; [lia|]. split; [lia|]. split; [rewrite E; cbn [z_s]; exact Z2|rewrite E; reflexivity].
Qed.
Lemma pub_moves evs ev w z0 s' os k0 c d l k x y y' :
  Forall (input_fits co) evs -> input_fits co ev -> parts (run evs) c d l k x y ->
  step (run evs) ev = z_pub max buf min auth co w z0 ->
  z_c z0 = z_c (run evs) -> z_s z0 = z_s (run evs) -> z_ccids z0 = z_ccids (run evs) -> z_scids z0 = z_scids (run evs) -> z_clog z0 = z_clog (run evs) -> z_slog z0 = z_slog (run evs) ->
  mget l (z_links z0) = Some k0 -> unbroken k0 ->
  sact (z_s (run evs)) w = (s', os) ->
  pb_closed s' = pb_closed (z_s (run evs)) -> pb_hist s' = pb_hist (z_s (run evs)) ->
  (forall u, u <> d -> mget u (pb_sess s') = mget u (pb_sess (z_s (run evs)))) ->
  mget d (pb_sess s') = Some y' ->
  Forall (fine_pub d) os ->
  exists k', let z' := run (evs ++ [ev]) in parts z' c d l k' x y' /\ kept c d (run evs) z' /\ mget l (fold_left (s_route (z_scids z0)) os (z_links z0)) = Some k' /\
    (w1 k' = w1 k + length (taken_on d os))%nat /\ (w2 k' + length (controls_on d os) = w2 k)%nat /\ z_c z' = z_c (run evs) /\ z_s z' = s'.
Proof using TOK.
  intros F Fe P St Z1 Z2 Z3 Z4 Z5 Z6 G0 U0 A D1 D2 D3 D4 Fo.
  pose proof (run_snoc token ingress initial D max buf min auth co evs ev) as E. rewrite St in E. unfold z_pub in E. rewrite Z2, A in E. set (z' := run (evs ++ [ev])) in *.
  destruct (view_get' _ _ _ _ _ (s_routes_frs (z_scids z0) os (z_links z0)) G0) as (k' & G' & Ek).
  assert (F' : Forall (input_fits co) (evs ++ [ev])) by (apply Forall_app; split; [exact F|repeat constructor; exact Fe]).
  assert (P' : parts z' c d l k' x y').
  { destruct P as [H1 H2 X1 X2 X3 Y K1 K2 K3 K4]. rewrite E. pose proof G' as G''. rewrite Z4 in G''. constructor; cbn [z_c z_s z_ccids z_scids z_links]; rewrite ?Z1, ?Z3, ?Z4, ?D1; try assumption. eapply unbroken_frs; eassumption. }
  exists k'. cbv zeta. split; [exact P'|]. split.
  - rewrite E. constructor; cbn [z_c z_s z_ccids z_scids z_links z_clog z_slog]; rewrite ?Z1, ?Z3, ?Z4, ?Z5, ?Z6; auto.
    + exists []. split; [symmetry; apply app_nil_r|constructor].
    + exists os. auto.
  - split; [exact G'|]. pose proof (lens token ingress initial D max buf min auth co TOK _ _ _ _ _ _ _ F P) as [L1 L2]. pose proof (lens token ingress initial D max buf min auth co TOK _ _ _ _ _ _ _ F' P') as [L3 L4].
    destruct (logs token ingress initial D max buf min auth co TOK _ _ _ _ _ _ _ F P) as (E1 & E2 & E3 & E4 & _). destruct (logs token ingress initial D max buf min auth co TOK _ _ _ _ _ _ _ F' P') as (E1' & E2' & E3' & E4' & _).
    fold z' in L3, L4, E1', E2', E3', E4'.
    assert (Q1 : z_clog z' = z_clog (run evs)) by (rewrite E; cbn [z_clog]; exact Z5).
    assert (Q2 : z_slog z' = z_slog (run evs) ++ os) by (rewrite E; cbn [z_slog]; rewrite Z6; reflexivity).
    unfold w1, w2. rewrite E1, E2, E3, E4, E1', E2', E3', E4'. rewrite Q1, Q2, PubNetP.ctl_on_app in *. unfold taken_on in *. rewrite flat_map_app, !app_length in *.
    split; [lia|]. split; [lia|]. split; [rewrite E; cbn [z_c]; exact Z1|rewrite E; reflexivity].
Qed.

(** ** The result of a step *)
Definition moved (c d l : N) (k : plink) (x : sconn) (y : sess) (z z' : zsys) (st : Prop) : Prop :=
  exists k' x' y', parts z' c d l k' x' y' /\ kept c d z z' /\ sc_addr x' = sc_addr x /\
    (still_to_come buf z' c d <= still_to_come buf z c d)%nat /\
    (length (sb_out (z_c z')) + still_to_come buf z' c d <= length (sb_out (z_c z)) + still_to_come buf z c d)%nat /\
    (better_by (core_of z x y k) (core_of z' x' y' k') (todo k) (todo k') \/ (core_of z' x' y' k' = core_of z x y k /\ todo k' = todo k /\ ~ st)).
Lemma stay c d l k x y z st : parts z c d l k x y -> ~ st -> moved c d l k x y z z st.
Proof using. clear TOK. intros P S. exists k, x, y. split; [exact P|]. split; [apply kept_refl|]. split; [reflexivity|]. split; [lia|]. split; [lia|]. right. auto. Qed.
Lemma stc_eq z c d l k x y : parts z c d l k x y -> still_to_come buf z c d =
  (N.to_nat (blen (pb_hist (z_s z)) - fu z d) + match sn_pending y with Some _ => 1 | None => 0 end + w1 k + length (sc_in x))%nat.
Proof using. clear TOK. intros [H1 H2 X1 X2 X3 Y K1 K2 K3 K4]. unfold still_to_come. rewrite Y, K1, K3, X1. reflexivity. Qed.
Lemma fu_s z z' d : z_s z' = z_s z -> fu z' d = fu z d.
Proof using. clear TOK. intros E. unfold first_unread. rewrite E. reflexivity. Qed.

Lemma take_moved evs c d l k x y : Forall (input_fits co) evs -> parts (run evs) c d l k x y ->
  moved c d l k x y (run evs) (run (evs ++ [ZTake])) (kt (core_of (run evs) x y k)).
Proof using TOK.
  intros F P. pose proof P as [H1 H2 X1 X2 X3 Y K1 K2 K3 K4].
  destruct (sb_out (z_c (run evs))) as [|[[[u a] t] p] q] eqn:Eo.
  - destruct (sub_moves evs ZTake YTake (run evs) (z_c (run evs)) [] k c d l k x y x F I P) as (k' & P' & Kp & G & E1 & E2 & Es & Ec); try reflexivity; try assumption; try constructor.
    { unfold sb_act, sb_take. rewrite Eo. reflexivity. }
    cbn [fold_left] in G. assert (k' = k) by congruence. subst k'.
    exists k, x, y. split; [exact P'|]. split; [exact Kp|]. split; [reflexivity|]. rewrite (stc_eq _ _ _ _ _ _ _ P), (stc_eq _ _ _ _ _ _ _ P'), Ec, Es, (fu_s _ _ _ Es).
    split; [lia|]. split; [lia|]. right. split; [unfold core_of; rewrite Ec, Es; reflexivity|]. split; [reflexivity|]. unfold kt, core_of. cbn [co_out]. rewrite Eo. cbn. auto.
  - destruct (sub_moves evs ZTake YTake (run evs) (sb_set_out (z_c (run evs)) q) [UYield u a t p] k c d l k x y x F I P) as (k' & P' & Kp & G & E1 & E2 & Es & Ec); try reflexivity; try assumption.
    { unfold sb_act, sb_take. rewrite Eo. reflexivity. }
    { constructor; [left; exact I|constructor]. }
    exists k', x, y. split; [exact P'|]. split; [exact Kp|]. split; [reflexivity|]. rewrite (stc_eq _ _ _ _ _ _ _ P), (stc_eq _ _ _ _ _ _ _ P'), Ec, Es, (fu_s _ _ _ Es). rewrite Eo. cbn [received_on written_on flat_map length sb_set_out sb_out] in *.
    split; [lia|]. split; [lia|]. left. left. unfold core_work, core_of. cbn [co_out co_in co_cmds co_eg co_un co_pend co_w1 co_w2]. rewrite Ec, Es, Eo. cbn [sb_set_out sb_out length]. fold (w1 k) (w1 k') (w2 k) (w2 k'). lia.
Qed.

Lemma entry_moved evs c d l k x y now : (forall cm, co = Some cm -> inverse_of D cm) -> Forall (input_fits co) evs -> parts (run evs) c d l k x y ->
  (length (sb_out (z_c (run evs))) + still_to_come buf (run evs) c d <= N.to_nat ingress)%nat ->
  moved c d l k x y (run evs) (run (evs ++ [ZEntry (sc_addr x) now])) (ke (core_of (run evs) x y k)).
Proof using TOK.
  intros INV F P Ld. rewrite (stc_eq _ _ _ _ _ _ _ P) in Ld. pose proof P as [H1 H2 X1 X2 X3 Y K1 K2 K3 K4].
  destruct (sc_in x) as [|m rest] eqn:Ei.
  - destruct (sub_moves evs (ZEntry (sc_addr x) now) (YEntry (sc_addr x) now) (run evs) (z_c (run evs)) [] k c d l k x y x F I P) as (k' & P' & Kp & G & E1 & E2 & Es & Ec); try reflexivity; try assumption; try constructor.
    { unfold sb_act, sb_entry. rewrite X3, X1, Ei, X2. reflexivity. }
    cbn [fold_left] in G. assert (k' = k) by congruence. subst k'.
    exists k, x, y. split; [exact P'|]. split; [exact Kp|]. split; [reflexivity|]. rewrite (stc_eq _ _ _ _ _ _ _ P), (stc_eq _ _ _ _ _ _ _ P'), Ec, Es, (fu_s _ _ _ Es).
    split; [lia|]. split; [lia|]. right. split; [unfold core_of; rewrite Ec, Es; reflexivity|]. split; [reflexivity|]. unfold ke, core_of. cbn [co_in]. rewrite Ei. cbn. auto.
  - assert (Dm : try_decompress D (tm_ctype m) (tm_payload m) <> None) by (eapply (in_decompress token ingress initial D max buf min auth co TOK); [exact INV|exact F|exact P|rewrite Ei; left; reflexivity]).
    destruct (try_decompress D (tm_ctype m) (tm_payload m)) as [p|] eqn:Ed; [|congruence].
    cbn [length] in Ld.
    destruct (sub_moves evs (ZEntry (sc_addr x) now) (YEntry (sc_addr x) now) (run evs)
      (sb_set_out (sb_set_conns (z_c (run evs)) (mset c (sc_set_in x rest) (sb_conns (z_c (run evs))))) (sb_out (z_c (run evs)) ++ [(c, sc_addr x, tm_topic m, p)])) [UDeliver c m (sc_addr x) p TSent] k c d l k x y (sc_set_in x rest) F I P)
      as (k' & P' & Kp & G & E1 & E2 & Es & Ec); try reflexivity; try assumption.
    + unfold sb_act, sb_entry. rewrite X3, X1, Ei, Ed. unfold sb_pass. cbn [sb_set_conns sb_dropped sb_out]. rewrite H1.
      assert (Lt : (blen (sb_out (z_c (run evs))) <? ingress) = true) by (apply N.ltb_lt; unfold blen; lia). rewrite Lt. reflexivity.
    + intros u Hu. cbn [sb_set_out sb_set_conns sb_conns]. apply mget_set_ne. exact Hu.
    + cbn [sb_set_out sb_set_conns sb_conns]. apply mget_set_eq.
    + constructor; [left; reflexivity|constructor].
    + exists k', (sc_set_in x rest), y. split; [exact P'|]. split; [exact Kp|]. split; [reflexivity|]. rewrite (stc_eq _ _ _ _ _ _ _ P), (stc_eq _ _ _ _ _ _ _ P'), Ec, Es, (fu_s _ _ _ Es).
      cbn [received_on written_on flat_map length sb_set_out sb_out sc_set_in sc_in] in *. rewrite app_length, Ei. cbn [length].
      split; [lia|]. split; [lia|]. left. left. unfold core_work, core_of. cbn [co_out co_in co_cmds co_eg co_un co_pend co_w1 co_w2]. rewrite Ec, Es, Ei. cbn [sb_set_out sb_out sc_set_in sc_in sc_cmds sc_egress length]. rewrite app_length. cbn [length]. fold (w1 k) (w1 k') (w2 k) (w2 k'). lia.
Qed.

(** ** The subscriber's session *)
Lemma sub_moved evs c d l k x y e i : Forall (input_fits co) evs -> parts (run evs) c d l k x y -> y_now e < 2 ^ 64 -> (forall a, In a (y_sends e) -> a = SaOk) -> data_only i ->
  (still_to_come buf (run evs) c d <= 1024)%nat ->
  moved c d l k x y (run evs) (run (evs ++ [ZSub c e i])) (sub_turn c (run evs) (ZSub c e i) /\ kc (core_of (run evs) x y k)).
Proof using TOK.
  intros F P Nw Sd Di Ld. rewrite (stc_eq _ _ _ _ _ _ _ P) in Ld. pose proof P as [H1 H2 X1 X2 X3 Y K1 K2 K3 K4].
  destruct (pipe_offers i (en_in (lk_c k))) eqn:Of.
  2: { assert (E : run (evs ++ [ZSub c e i]) = run evs) by (rewrite run_snoc; unfold z_step, z_subsess, z_link_of; rewrite X1, X2, K1, K3, Of; reflexivity).
       rewrite E. apply stay; [exact P|]. intros [(_ & l' & k' & G1 & G2 & (X & _)) _]. congruence. }
  destruct (logs token ingress initial D max buf min auth co TOK _ _ _ _ _ _ _ F P) as (E1 & E2 & E3 & E4 & _ & _ & O1 & O2 & LK). destruct (hs_both token auth k LK O1 O2) as [_ Hh].
  pose proof (run_JL token ingress initial D max buf min auth co evs _ _ K3) as [J1 _]. pose proof K4 as (U1 & U2 & U3 & U4).
  assert (W : Forall ps_wf (en_sent (lk_s k))).
  { rewrite E3. eapply wf_taken; [exact (pub_is_run token ingress initial D max buf min auth co TOK evs)|]. intros m. apply (run_fit token ingress initial D max buf min auth co TOK evs F). }
  destruct (poll_data (lk_s k) (lk_c k) i (proj1 (proj2 LK)) W Hh J1 (conj U1 U2) Di Of) as (r & b & Ep & (S1 & S2) & Sb & Hr).
  assert (Hd : sc_held x = true).
  { pose proof (sub_is_run token ingress initial D max buf min auth co TOK evs) as Rc. pose proof (SubDriverP.run_SI token ingress initial D _ _ _ Rc) as SI0.
    destruct (SubDriverP.si_act _ SI0 _ _ X3) as (x0 & A & _ & B). congruence. }
  set (ev := ZSub c e i). set (w := YSess c (y_with_next e (pn_of r))). set (k0 := mkLink b (lk_s k)).
  assert (Ub : unbroken k0) by (split; [exact S1|]; split; [exact S2|]; split; [exact U3|exact U4]).
  assert (St : step (run evs) ev = z_sub token ingress initial D w (z_set_link l k0 (run evs))).
  { unfold ev, z_step, z_subsess, z_link_of. rewrite X1, X2, K1, K3, Of, Ep. reflexivity. }
  assert (Gl : mget l (z_links (z_set_link l k0 (run evs))) = Some k0) by (cbn [z_set_link z_links]; apply mget_set_eq).
  assert (fin : forall x' os s, ss_iter c (y_with_next e (pn_of r)) x = (x', os, s) -> sc_alive x' = true -> sc_addr x' = sc_addr x -> Forall (fine_sub_busy c) os ->
     (length (sc_in x') <= length (sc_in x) + length (received_on c os))%nat ->
     (x_work x' + length (written_on c os) < x_work x + 3 * length (received_on c os))%nat \/
     ((os = [] \/ os = [UBusy c]) /\ sc_in x' = sc_in x /\ sc_cmds x' = sc_cmds x /\ length (sc_egress x') = length (sc_egress x) /\
       ((todo k0 < todo k)%nat \/ (todo k0 = todo k /\ ~ (sub_turn c (run evs) ev /\ kc (core_of (run evs) x y k))))) ->
     moved c d l k x y (run evs) (run (evs ++ [ev])) (sub_turn c (run evs) ev /\ kc (core_of (run evs) x y k))).
  { intros x' os s It Al Ad Fo Li Ar.
    destruct (sub_moves evs ev w (z_set_link l k0 (run evs)) (sb_set_conns (z_c (run evs)) (mset c x' (sb_conns (z_c (run evs))))) os k0 c d l k x y x' F Nw P St) as (k' & P' & Kp & G & Q1 & Q2 & Es & Ec); try reflexivity; try assumption.
    - unfold w, sb_act, sb_session. rewrite X1, X2, It. reflexivity.
    - intros u Hu. cbn [sb_set_conns sb_conns]. apply mget_set_ne. exact Hu.
    - cbn [sb_set_conns sb_conns]. apply mget_set_eq.
    - exists k', x', y. split; [exact P'|]. split; [exact Kp|]. split; [exact Ad|]. rewrite (stc_eq _ _ _ _ _ _ _ P), (stc_eq _ _ _ _ _ _ _ P'), Ec, Es, (fu_s _ _ _ Es). cbn [sb_set_conns sb_out].
      split; [lia|]. split; [lia|]. unfold better_by, core_work, core_of. cbn [co_out co_in co_cmds co_eg co_un co_pend co_w1 co_w2]. rewrite Ec, Es. cbn [sb_set_conns sb_out]. fold (w1 k) (w1 k') (w2 k) (w2 k'). unfold x_work in Ar.
      destruct Ar as [Ar|(Ho & I1 & I2 & I3 & Bt)]; [left; left; lia|].
      assert (k' = k0) by (destruct Ho; subst os; cbn [fold_left c_route] in G; congruence). subst k'.
      assert (R0 : received_on c os = [] /\ written_on c os = []) by (destruct Ho; subst os; split; reflexivity). destruct R0 as [R0 R1]. rewrite R0, R1 in *. cbn [length] in *.
      rewrite I1, I2, I3. destruct Bt as [Bt|[Bt Ns]]; [left; right; lia|right]. split; [f_equal; lia|]. auto. }
  destruct Hr as [(-> & Ei & Bt & Al)|(m & rest & -> & Ei & Es)].
  - destruct (eg_some c (sc_egress x) (y_sends e) Sd) as (eg' & o & pr & f & Eg & Fo & Ro & Ln & Pt & Pf).
    destruct pr.
    + eapply fin; [unfold ss_iter; cbn [y_with_next y_next y_sends y_now y_flush pn_of sc_set_egress sc_egress]; rewrite Eg; reflexivity|exact X2|reflexivity|exact Fo| |].
      * cbn [sc_set_egress sc_in]. lia.
      * left. specialize (Pt eq_refl). unfold x_work. cbn [sc_set_egress sc_in sc_cmds sc_egress]. rewrite Ro. cbn [length]. lia.
    + destruct (Pf eq_refl) as [Ho Hs].
      assert (Wr : written_on c o = []) by (destruct Ho; subst o; reflexivity). rewrite Wr in *. cbn [length] in Ln.
      destruct (sc_cmds x) as [|cm cs] eqn:Ec.
      * eapply fin; [unfold ss_iter; cbn [y_with_next y_next y_sends y_now y_flush pn_of sc_set_egress sc_egress]; rewrite Eg; cbn [sc_set_egress sc_cmds sc_held]; rewrite Ec, Hd; reflexivity|exact X2|reflexivity|exact Fo| |].
        -- cbn [sc_set_egress sc_in]. lia.
        -- right. cbn [sc_set_egress sc_in sc_cmds sc_egress]. split; [exact Ho|]. split; [reflexivity|]. split; [exact Ec|]. split; [lia|].
           unfold todo, k0. cbn [lk_c lk_s]. destruct i as [|u i].
           ++ right. change (length (io_data [])) with 0%nat in Bt. split; [lia|]. intros [(Ns & l' & k' & G1 & G2 & (_ & Td)) Kc]. assert (l' = l) by congruence. subst l'. assert (k' = k) by congruence. subst k'. specialize (Td eq_refl).
              rewrite Td in Bt. cbn [length] in Bt. assert (Ez : pp_todo (en_in b) = []) by (destruct (pp_todo (en_in b)); [reflexivity|cbn in Bt; lia]).
              unfold kc, core_of in Kc. cbn [co_cmds co_eg co_w1] in Kc. rewrite Ec, (Al Ez), Nat.sub_diag in Kc. destruct Hs as [Hs|Hs]; [rewrite Hs in Kc; cbn in Kc; lia|exact (Ns Hs)].
           ++ left. pose proof (ReqRepNetP15.data_received (u :: i) Di ltac:(discriminate)). lia.
      * assert (Fr : cmd_frame (y_now e) cm <> None).
        { pose proof (sub_is_run token ingress initial D max buf min auth co TOK evs) as Rc. destruct (run_events token ingress initial D max buf min auth co evs F) as [_ Fc].
          eapply (cmds_fit token ingress initial D _ _ _ _ _ _ (y_now e) Rc Fc X1 X2). rewrite Ec. left. reflexivity. }
        destruct (cmd_frame (y_now e) cm) as [fm|] eqn:Ef; [|congruence].
        eapply fin; [unfold ss_iter; cbn [y_with_next y_next y_sends y_now y_flush pn_of sc_set_egress sc_egress]; rewrite Eg; cbn [sc_set_egress sc_cmds sc_held]; rewrite Ec, Ef; reflexivity|exact X2|reflexivity| | |].
        -- apply Forall_app. split; [exact Fo|]. constructor; [left; reflexivity|constructor].
        -- cbn [sc_set_cmds sc_set_egress sc_in]. lia.
        -- left. unfold x_work. cbn [sc_set_cmds sc_set_egress sc_in sc_cmds sc_egress]. rewrite Ec, app_length, rec_on_app, wok_on_app, Ro, Wr. cbn [length written_on received_on flat_map app]. lia.
  - assert (Cap : (blen (sc_in x) <? IN_CAP) = true).
    { apply N.ltb_lt. unfold IN_CAP, blen. unfold w1 in Ld. rewrite Es, app_length in Ld. cbn [length] in Ld. lia. }
    eapply fin; [unfold ss_iter; cbn [y_with_next y_next y_sends y_now y_flush pn_of]; unfold ss_incoming; cbn [sc_set_egress sc_held sc_in]; rewrite Hd, Cap; reflexivity|exact X2|reflexivity| | |].
    + constructor; [left; reflexivity|constructor].
    + cbn [sc_set_in sc_set_stats sc_in]. rewrite app_length. cbn [received_on flat_map]. destruct (eq_dec c c); [|congruence]. cbn [app length]. lia.
    + left. unfold x_work. cbn [sc_set_in sc_set_stats sc_set_egress sc_in sc_cmds sc_egress length written_on received_on flat_map app]. rewrite app_length. destruct (eq_dec c c); [|congruence]. cbn [app length]. lia.
Qed.

(** ** The publisher's session *)
Lemma pub_moved evs c d l k x y e i : Forall (input_fits co) evs -> parts (run evs) c d l k x y -> s_now e < 2 ^ 64 -> s_send e = true -> data_only i ->
  moved c d l k x y (run evs) (run (evs ++ [ZPub d e i])) (pub_turn d (run evs) (ZPub d e i) /\ ks (core_of (run evs) x y k)).
Proof using TOK.
  intros F P Nw Sd Di. pose proof P as [H1 H2 X1 X2 X3 Y K1 K2 K3 K4].
  set (ev := ZPub d e i). set (hist := pb_hist (z_s (run evs))).
  pose proof (pub_is_run token ingress initial D max buf min auth co TOK evs) as Rs. destruct (PubDriverP4.run_tinv _ _ _ _ _ _ _ _ Rs) as [_ T].
  assert (Hp : sn_pos y <= blen hist) by (unfold hist; rewrite (PubDriverP2.ti_hist _ _ _ T); exact (PubDriverP2.si_pos _ _ _ (PubDriverP2.ti_sess _ _ _ T _ _ Y))).
  assert (Cp : 0 < bcast_cap buf) by (unfold bcast_cap; apply N.neq_0_lt_0, N.pow_nonzero; discriminate).
  set (fun_ := fun q : N => if q + bcast_cap buf <? blen hist then blen hist - bcast_cap buf else q).
  set (pd := fun q : sess => match sn_pending q with Some _ => 1%nat | None => 0%nat end).
  assert (fin : forall e' k0 z0 y' dt os r, step (run evs) ev = z_pub max buf min auth co (WSession d e') z0 -> z0 = run evs /\ k0 = k \/ z0 = z_set_link l k0 (run evs) -> unbroken k0 ->
     sn_iter buf d e' hist (pb_closed (z_s (run evs))) y = (y', dt, os, r) -> r = SCont \/ r = SPend -> Forall (fine_pub d) os ->
     (N.to_nat (blen hist - fun_ (sn_pos y')) + pd y' + length (taken_on d os) <= N.to_nat (blen hist - fun_ (sn_pos y)) + pd y)%nat ->
     (5 * (length hist - N.to_nat (sn_pos y')) + 4 * pd y' + 3 * length (taken_on d os) < 5 * (length hist - N.to_nat (sn_pos y)) + 4 * pd y + length (controls_on d os))%nat \/
     (os = [] /\ sn_pos y' = sn_pos y /\ sn_pending y' = sn_pending y /\
       ((todo k0 < todo k)%nat \/ (todo k0 = todo k /\ ~ (pub_turn d (run evs) ev /\ ks (core_of (run evs) x y k))))) ->
     moved c d l k x y (run evs) (run (evs ++ [ev])) (pub_turn d (run evs) ev /\ ks (core_of (run evs) x y k))).
  { intros e' k0 z0 y' dt os r St Hz Hu It Hr Fo Li Ar.
    destruct (pub_moves evs ev (WSession d e') z0 (mkPb (pb_active (z_s (run evs))) (pb_conns (z_s (run evs))) (pb_auths (z_s (run evs))) (mset d y' (pb_sess (z_s (run evs)))) (pb_hist (z_s (run evs))) (pb_closed (z_s (run evs))) (pb_next_cid (z_s (run evs))) (pb_tx (z_s (run evs)) + dt))
       os k0 c d l k x y y' F Nw P St) as (k' & P' & Kp & G & Q1 & Q2 & Ec & Es); try (destruct Hz as [[-> _]| ->]; reflexivity); try reflexivity; try assumption.
    - destruct Hz as [[-> ->]| ->]; [exact K3|cbn [z_set_link z_links]; apply mget_set_eq].
    - unfold pb_act, pb_session. rewrite Y. fold hist. rewrite It. destruct Hr as [-> | ->]; reflexivity.
    - intros u Hu'. cbn [pb_sess]. apply mget_set_ne. exact Hu'.
    - cbn [pb_sess]. apply mget_set_eq.
    - exists k', x, y'. split; [exact P'|]. split; [exact Kp|]. split; [reflexivity|]. rewrite (stc_eq _ _ _ _ _ _ _ P), (stc_eq _ _ _ _ _ _ _ P').
      assert (Fz : fu (run evs) d = fun_ (sn_pos y)) by (unfold first_unread; rewrite Y; reflexivity).
      assert (Fz' : fu (run (evs ++ [ev])) d = fun_ (sn_pos y')) by (unfold first_unread; rewrite Es; cbn [pb_sess pb_hist]; rewrite mget_set_eq; reflexivity).
      rewrite Fz, Fz', Ec, Es. cbn [pb_hist]. fold hist (pd y) (pd y').
      split; [lia|]. split; [lia|]. unfold better_by, core_work, core_of. cbn [co_out co_in co_cmds co_eg co_un co_pend co_w1 co_w2]. rewrite Ec, Es. cbn [pb_hist]. fold (w1 k) (w1 k') (w2 k) (w2 k') (pd y) (pd y') hist.
      destruct Ar as [Ar|(Ho & I1 & I2 & Bt)]; [left; left; lia|]. subst os. cbn [fold_left] in G. cbn [taken_on controls_on flat_map length] in Q1, Q2.
      assert (k' = k0). { destruct Hz as [[Hz Hk]|Hz]; subst; [congruence|cbn [z_set_link z_links] in G; rewrite mget_set_eq in G; congruence]. } subst k'.
      assert (Epd : pd y' = pd y) by (unfold pd; rewrite I2; reflexivity). rewrite I1, Epd. destruct Bt as [Bt|[Bt Ns]]; [left; right; lia|right]. split; [f_equal; lia|]. auto. }
  destruct (s_ready e) eqn:Rdy.
  2: { eapply (fin (s_with_next e PnPending) k (run evs)).
       - unfold ev, z_step, z_pubsess, z_link_of, s_wants_next. rewrite Y, K2, K3, Rdy. reflexivity.
       - left. split; reflexivity.
       - exact K4.
       - unfold sn_iter. cbn [s_with_next s_ready]. rewrite Rdy. reflexivity.
       - right. reflexivity.
       - constructor.
       - cbn [sn_pos sn_pending taken_on flat_map length]. unfold pd. cbn [sn_pending]. lia.
       - right. split; [reflexivity|]. split; [reflexivity|]. split; [reflexivity|]. right. split; [reflexivity|]. intros [(X & _) _]. congruence. }
  destruct (sn_pending y) as [m|] eqn:Em.
  { eapply (fin (s_with_next e PnPending) k (run evs)).
    - unfold ev, z_step, z_pubsess, z_link_of, s_wants_next. rewrite Y, K2, K3, Em, Rdy. reflexivity.
    - left. split; reflexivity.
    - exact K4.
    - unfold sn_iter. cbn [s_with_next s_ready s_send sn_pending]. rewrite Rdy, Em, Sd. reflexivity.
    - left. reflexivity.
    - repeat constructor.
    - unfold pd. rewrite Em. cbn [sn_pos sn_pending taken_on flat_map app length]. destruct (eq_dec d d); [|congruence]. cbn [app length]. lia.
    - left. unfold pd. rewrite Em. cbn [sn_pos sn_pending taken_on controls_on flat_map app length]. destruct (eq_dec d d); [|congruence]. cbn [app length]. lia. }
  destruct (N.eqb_spec (sn_pos y) (blen hist)) as [Ep|Ep].
  - assert (Wn : s_wants_next buf e (z_s (run evs)) y = true). { unfold s_wants_next, bcast_recv. rewrite Em, H2, Rdy. fold hist. rewrite Ep, N.eqb_refl. reflexivity. }
    destruct (pipe_offers i (en_in (lk_s k))) eqn:Of.
    2: { assert (E : run (evs ++ [ev]) = run evs) by (rewrite run_snoc; unfold ev, z_step, z_pubsess, z_link_of; rewrite Y, K2, K3, Wn, Of; reflexivity).
         rewrite E. apply stay; [exact P|]. intros [(_ & l' & k' & G1 & G2 & (X & _)) _]. congruence. }
    destruct (logs token ingress initial D max buf min auth co TOK _ _ _ _ _ _ _ F P) as (E1 & E2 & E3 & E4 & _ & _ & O1 & O2 & LK). destruct (hs_both token auth k LK O1 O2) as [Hh _].
    pose proof (run_JL token ingress initial D max buf min auth co evs _ _ K3) as [_ J1]. pose proof K4 as (U1 & U2 & U3 & U4).
    assert (W : Forall ps_wf (en_sent (lk_c k))).
    { rewrite E1. eapply Forall_impl; [|eapply wf_written; [exact (sub_is_run token ingress initial D max buf min auth co TOK evs)|]]; [cbn; tauto|]. intros m. apply (run_fit token ingress initial D max buf min auth co TOK evs F). }
    destruct (poll_data (lk_c k) (lk_s k) i (proj1 LK) W Hh J1 (conj U3 U4) Di Of) as (r & b & Epl & (S1 & S2) & Sb & Hr).
    set (k0 := mkLink (lk_c k) b). assert (Ub : unbroken k0) by (split; [exact U1|]; split; [exact U2|]; split; [exact S1|exact S2]).
    assert (St : step (run evs) ev = z_pub max buf min auth co (WSession d (s_with_next e (pn_of r))) (z_set_link l k0 (run evs))).
    { unfold ev, z_step, z_pubsess, z_link_of. rewrite Y, K2, K3, Wn, Of, Epl. reflexivity. }
    assert (It : forall nx, sn_iter buf d (s_with_next e nx) hist (pb_closed (z_s (run evs))) y =
      (let fl := if sn_flush y && s_tick e && s_flush_ok e then false else sn_flush y in
       match nx with
       | PnMsg m => (mkSess (sn_seq y) (sn_pos y) None (match msg_to_control m with Some op => trie_op (sn_filter y) op | None => sn_filter y end) fl, 0, [QControl d m (msg_to_control m)], SCont)
       | PnPending => (mkSess (sn_seq y) (sn_pos y) (sn_pending y) (sn_filter y) fl, 0, [], SPend)
       | _ => (mkSess (sn_seq y) (sn_pos y) (sn_pending y) (sn_filter y) fl, 0, [], SDone)
       end)).
    { intros nx. unfold sn_iter. cbn [s_with_next s_ready s_next s_tick s_flush_ok sn_pending sn_pos]. rewrite Rdy, Em. unfold bcast_recv. rewrite H2, Ep, N.eqb_refl. destruct nx; reflexivity. }
    destruct Hr as [(-> & Ei & Bt & Al)|(m & rest & -> & Ei & Es)].
    + eapply (fin _ k0 _ _ _ _ _ St); [right; reflexivity|exact Ub|cbn [pn_of]; rewrite It; reflexivity|right; reflexivity|constructor| |].
      * unfold pd. cbn [sn_pos sn_pending taken_on flat_map length]. lia.
      * right. split; [reflexivity|]. split; [reflexivity|]. split; [exact Em|]. unfold todo, k0. cbn [lk_c lk_s]. destruct i as [|u i].
        -- right. change (length (io_data [])) with 0%nat in Bt. split; [lia|]. intros [(_ & l' & k' & G1 & G2 & (_ & Td)) Kc]. assert (l' = l) by congruence. subst l'. assert (k' = k) by congruence. subst k'. specialize (Td eq_refl).
           rewrite Td in Bt. cbn [length] in Bt. assert (Ez : pp_todo (en_in b) = []) by (destruct (pp_todo (en_in b)); [reflexivity|cbn in Bt; lia]).
           unfold ks, core_of in Kc. cbn [co_un co_pend co_w2] in Kc. rewrite Em, (Al Ez), Nat.sub_diag in Kc. fold hist in Kc. unfold blen in Ep. lia.
        -- left. pose proof (ReqRepNetP15.data_received (u :: i) Di ltac:(discriminate)). lia.
    + eapply (fin _ k0 _ _ _ _ _ St); [right; reflexivity|exact Ub|cbn [pn_of]; rewrite It; reflexivity|left; reflexivity|repeat constructor| |].
      * unfold pd. rewrite Em. cbn [sn_pos sn_pending taken_on flat_map app length]. lia.
      * left. unfold pd. rewrite Em. cbn [sn_pos sn_pending taken_on controls_on flat_map length]. destruct (eq_dec d d); [|congruence]. cbn [app length]. lia.
  - assert (Wn : s_wants_next buf e (z_s (run evs)) y = false).
    { unfold s_wants_next, bcast_recv. rewrite Em. fold hist. destruct (N.eqb_spec (sn_pos y) (blen hist)); [congruence|]. destruct (_ <? _); rewrite Bool.andb_false_r; reflexivity. }
    assert (Hlt : sn_pos y < blen hist) by lia.
    assert (St : step (run evs) ev = z_pub max buf min auth co (WSession d (s_with_next e PnPending)) (run evs)).
    { unfold ev, z_step, z_pubsess, z_link_of. rewrite Y, K2, K3, Wn. reflexivity. }
    assert (Ex : exists y' os, sn_iter buf d (s_with_next e PnPending) hist (pb_closed (z_s (run evs))) y = (y', 0, os, SCont) /\ Forall (fine_pub d) os /\
       taken_on d os = [] /\ (N.to_nat (blen hist - fun_ (sn_pos y')) + pd y' <= N.to_nat (blen hist - fun_ (sn_pos y)) + pd y)%nat /\
       (5 * (length hist - N.to_nat (sn_pos y')) + 4 * pd y' < 5 * (length hist - N.to_nat (sn_pos y)) + 4 * pd y)%nat).
    { unfold sn_iter. cbn [s_with_next s_ready s_now sn_pending sn_pos sn_seq sn_filter]. rewrite Em, Rdy. unfold bcast_recv. destruct (N.eqb_spec (sn_pos y) (blen hist)); [congruence|].
      destruct (N.ltb_spec (sn_pos y + bcast_cap buf) (blen hist)) as [Lg|Lg].
      - eexists _, _. split; [reflexivity|]. split; [repeat constructor|]. split; [reflexivity|]. unfold pd, fun_. rewrite Em. cbn [sn_pos sn_pending]. unfold blen in *.
        destruct (N.ltb_spec (N.of_nat (length hist) - bcast_cap buf + bcast_cap buf) (N.of_nat (length hist))); destruct (N.ltb_spec (sn_pos y + bcast_cap buf) (N.of_nat (length hist))); lia.
      - assert (Ff : (N.to_nat (blen hist - fun_ (sn_pos y + 1)%N) + 1 = N.to_nat (blen hist - fun_ (sn_pos y)))%nat).
        { unfold fun_. destruct (N.ltb_spec (sn_pos y + 1 + bcast_cap buf) (blen hist)); destruct (N.ltb_spec (sn_pos y + bcast_cap buf) (blen hist)); lia. }
        destruct (nth_error hist (N.to_nat (sn_pos y))) as [p|] eqn:En; [|apply nth_error_None in En; unfold blen in *; lia].
        destruct (trie_contains (sn_filter y) (pm_topic p)).
        + assert (Ft : blen (pm_topic p) < 2 ^ 16) by (eapply (hist_fit token ingress initial D max buf min auth co TOK evs); [exact F|eapply nth_error_In; exact En]).
          unfold pub_into_wire, ps_new. destruct (N.ltb_spec (blen (pm_topic p)) (2 ^ 16)); [|exfalso; apply (N.lt_irrefl (2 ^ 16)); eapply N.le_lt_trans; eassumption].
          eexists _, _. split; [reflexivity|]. split; [repeat constructor|]. split; [reflexivity|]. unfold pd. rewrite Em. cbn [sn_pos sn_pending]. unfold blen in *. lia.
        + eexists _, _. split; [reflexivity|]. split; [repeat constructor|]. split; [reflexivity|]. unfold pd. rewrite Em. cbn [sn_pos sn_pending]. unfold blen in *. lia. }
    destruct Ex as (y' & os & It & Fo & Ht & Le & Wk).
    eapply (fin (s_with_next e PnPending) k (run evs) y' 0 os SCont St); [left; split; reflexivity|exact K4|exact It|left; reflexivity|exact Fo| |]; rewrite Ht; cbn [length]; [lia|left; lia].
Qed.

(** ** Any event of somebody doing his part *)
Lemma part_fits c d z ev : does_part c d z ev -> input_fits co ev.
Proof using. clear TOK. destruct ev; cbn; tauto. Qed.
Lemma part_moved evs c d l k x y ev : (forall cm, co = Some cm -> inverse_of D cm) -> Forall (input_fits co) evs -> parts (run evs) c d l k x y -> buffers_suffice ingress buf (run evs) c d ->
  does_part c d (run evs) ev -> moved c d l k x y (run evs) (run (evs ++ [ev])) (strict c d (run evs) (core_of (run evs) x y k) ev).
Proof using TOK.
  intros INV F P [B1 B2] Dp.
  assert (Im : forall (A Q : Prop) z', moved c d l k x y (run evs) z' A -> (Q -> A) -> moved c d l k x y (run evs) z' Q).
  { intros A Q z' (k' & x' & y' & M1 & M2 & M3 & M4 & M5 & M6) PQ. exists k', x', y'. split; [exact M1|]. split; [exact M2|]. split; [exact M3|]. split; [exact M4|]. split; [exact M5|]. destruct M6 as [M|(A1 & A2 & A3)]; [left; exact M|right; split; [exact A1|]; split; [exact A2|]; intros q; apply A3, PQ, q]. }
  destruct ev as [f| | |a now| |a ok|kk r order|cid e i|from|kk r|kk i b|cid e i|t p|t p| ]; try contradiction.
  - eapply Im; [apply take_moved; assumption|]. intros [[_ H]|[[[] _]|[[[] _]|[[] _]]]]. exact H.
  - destruct Dp as (x0 & G0 & <-). assert (x0 = x) by (pose proof (pt_x _ _ _ _ _ _ _ P); congruence). subst x0. eapply Im; [apply entry_moved; assumption|]. intros [[X _]|[[_ H]|[[[] _]|[[] _]]]]; [discriminate|exact H].
  - destruct Dp as (-> & D1 & D2 & D3). eapply Im; [apply sub_moved; assumption|]. intros [[X _]|[[[] _]|[H|[[] _]]]]; [discriminate|exact H].
  - destruct Dp as (-> & D1 & D2 & D3). eapply Im; [apply pub_moved; assumption|]. intros [[X _]|[[[] _]|[[[] _]|H]]]; [discriminate|exact H].
Qed.
End Z.
