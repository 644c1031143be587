(** The joint model of a subscriber and a publisher socket in touch: as long as something is left to do there is an event that does some of it. *)
From Coq Require Import ZArith Permutation Sorting.Sorted.
From Verif Require Import Model.Base Model.Map Model.Framed Model.WirePubSub Model.WireAuth Model.Compression Model.Handshake Model.JoinMap Model.Backoff Model.Trie Model.PubDriver Model.SubDriver Model.Net Model.PubSubNet
  Spec.Wire Spec.Stream Spec.CompressSpec Spec.PubSpec Spec.SubSpec Spec.NetSpec2 Spec.NetSpec6
  Proofs.BaseP Proofs.MapP Proofs.PubSubP Proofs.PubSubNetP Proofs.PubNetP Proofs.SubNetP Proofs.PubSubNetP2 Proofs.PubSubNetP3 Proofs.PubSubNetP5 Proofs.PubSubNetP6 Proofs.PubSubNetP7 Proofs.PubSubNetP10 Proofs.PubSubNetP11.
From Verif Require Proofs.PubDriverP Proofs.PubDriverP2 Proofs.PubDriverP4 Proofs.SubDriverP Proofs.SubDriverP2 Proofs.SubDriverP4.
Local Open Scope N_scope.

Lemma rec_on_app c a b : received_on c (a ++ b) = received_on c a ++ received_on c b. Proof. apply flat_map_app. Qed.

Lemma near_refl c d z : near c d z z.
Proof. constructor; try reflexivity; exists []; (split; [symmetry; apply app_nil_r|constructor]). Qed.
Lemma near_trans c d a b e : near c d a b -> near c d b e -> near c d a e.
Proof.
  intros [A1 A2 A3 A4 A5 A6 A7 A8 A9 A10 (o1 & A11 & F1) (p1 & A12 & G1)] [B1 B2 B3 B4 B5 B6 B7 B8 B9 B10 (o2 & B11 & F2) (p2 & B12 & G2)].
  constructor; try congruence.
  - intros c' H. rewrite B9, A9 by exact H. reflexivity.
  - intros c' H. rewrite B10, A10 by exact H. reflexivity.
  - exists (o1 ++ o2). rewrite B11, A11, app_assoc. split; [reflexivity|apply Forall_app; auto].
  - exists (p1 ++ p2). rewrite B12, A12, app_assoc. split; [reflexivity|apply Forall_app; auto].
Qed.

(** The parties. *)
Record parts (z : zsys) (c d l : N) (k : plink) (x : sconn) (y : sess) : Prop := mkParts {
  pt_drop : sb_dropped (z_c z) = false; pt_open : pb_closed (z_s z) = false;
  pt_x : mget c (sb_conns (z_c z)) = Some x; pt_alive : sc_alive x = true; pt_act : mget (sc_addr x) (sb_pubs (z_c z)) = Some (PActive c);
  pt_y : mget d (pb_sess (z_s z)) = Some y;
  pt_c : mget c (z_ccids z) = Some l; pt_s : mget d (z_scids z) = Some l; pt_k : mget l (z_links z) = Some k; pt_ok : unbroken k }.
Lemma parts_of z c d : in_touch z c d -> exists l k x y, parts z c d l k x y.
Proof. intros (H1 & H2 & (x & X1 & X2 & X3) & (y & Y) & (l & k & K1 & K2 & K3 & K4)). exists l, k, x, y. constructor; assumption. Qed.
Lemma of_parts z c d l k x y : parts z c d l k x y -> in_touch z c d.
Proof. intros [H1 H2 X1 X2 X3 Y K1 K2 K3 K4]. split; [exact H1|]. split; [exact H2|]. split; [eauto|]. split; [eauto|]. exists l, k. auto. Qed.

Definition x_work (x : sconn) : nat := 2 * length (sc_in x) + 3 * length (sc_cmds x) + 2 * length (sc_egress x).
Definition y_work (z : zsys) (y : sess) : nat := 5 * (length (pb_hist (z_s z)) - N.to_nat (sn_pos y)) + match sn_pending y with Some _ => 4 | None => 0 end.
Definition better (c d : N) (z z' : zsys) : Prop := near c d z z' /\ in_touch z' c d /\ (work_to_do z' c d < work_to_do z c d)%nat.

Lemma unbroken_frs k k' : frs k' = frs k -> unbroken k -> unbroken k'.
Proof. unfold frs, unbroken. intros E. inversion E as [[E1 E2]]. rewrite E1, E2. auto. Qed.

Lemma prefix_len {A} (a b : list A) : prefix_of a b -> (length a <= length b)%nat.
Proof. intros (r & ->). rewrite app_length. lia. Qed.

Section Z.
Variables (token : option bytes) (ingress initial : N) (D : decompressors)
          (max : option N) (buf min : N) (auth : option (bytes -> bool)) (co : option compressor).
Hypothesis TOK : forall t, token = Some t -> blen t < 2 ^ 32.
Notation step := (z_step token ingress initial D max buf min auth co).
Notation run := (z_run token ingress initial D max buf min auth co).
Notation cact := (sb_act token ingress initial D).
Notation sact := (pb_act max buf min auth co).

Lemma run_snoc evs ev : run (evs ++ [ev]) = step (run evs) ev.
Proof using. unfold z_run. rewrite fold_left_app. reflexivity. Qed.

Lemma logs evs c d l k x y : Forall (input_fits co) evs -> parts (run evs) c d l k x y ->
  en_sent (lk_c k) = written_on c (z_clog (run evs)) /\ en_items (lk_c k) = received_on c (z_clog (run evs)) /\
  en_sent (lk_s k) = taken_on d (z_slog (run evs)) /\ en_items (lk_s k) = controls_on d (z_slog (run evs)) /\
  prefix_of (en_items (lk_c k)) (en_sent (lk_s k)) /\ prefix_of (en_items (lk_s k)) (en_sent (lk_c k)) /\
  en_on (lk_c k) = true /\ en_on (lk_s k) = true /\ link_ok token auth k.
Proof using TOK.
  intros F P. destruct (z_inv token ingress initial D max buf min auth co TOK evs) as (C & L & S). destruct C as (_ & _ & _ & _ & C5 & _). destruct S as (_ & _ & _ & _ & _ & S6 & _).
  destruct P as [H1 H2 X1 X2 X3 Y K1 K2 K3 K4].
  destruct (C5 _ _ _ K1 K3) as (On & E1 & E2). pose proof (L _ _ K3) as LK. destruct (S6 _ _ _ K2 K3) as (E3 & E4 & _ & O).
  assert (Hs : same_connection (run evs) c d) by (exists l; auto).
  destruct (conn_frames token ingress initial D max buf min auth co TOK evs c d (run_fit token ingress initial D max buf min auth co TOK evs F) Hs) as [P1 P2].
  rewrite E1, E2, E3, E4. assert (Os : en_on (lk_s k) = true) by (apply O; unfold opn; rewrite Y; discriminate).
  auto 12.
Qed.
Lemma work_eq evs c d l k x y : Forall (input_fits co) evs -> parts (run evs) c d l k x y ->
  work_to_do (run evs) c d = (length (sb_out (z_c (run evs))) + x_work x + y_work (run evs) y +
    (3 * (length (taken_on d (z_slog (run evs))) - length (received_on c (z_clog (run evs)))) + (length (written_on c (z_clog (run evs))) - length (controls_on d (z_slog (run evs))))))%nat.
Proof using TOK.
  intros F P. destruct (logs _ _ _ _ _ _ _ F P) as (E1 & E2 & E3 & E4 & _). destruct P as [H1 H2 X1 X2 X3 Y K1 K2 K3 K4].
  unfold work_to_do, sub_work, pub_work, wire_work. rewrite X1, Y, K1, K3, E1, E2, E3, E4. reflexivity.
Qed.
Lemma lens evs c d l k x y : Forall (input_fits co) evs -> parts (run evs) c d l k x y ->
  (length (received_on c (z_clog (run evs))) <= length (taken_on d (z_slog (run evs))))%nat /\ (length (controls_on d (z_slog (run evs))) <= length (written_on c (z_clog (run evs))))%nat.
Proof using TOK.
  intros F P. destruct (logs _ _ _ _ _ _ _ F P) as (E1 & E2 & E3 & E4 & P1 & P2 & _). apply prefix_len in P1, P2. rewrite E1, E4 in P2. rewrite E2, E3 in P1. auto.
Qed.

(** ** A step of the subscriber *)
Lemma sub_better evs ev w z0 c' os k0 c d l k x y x' :
  Forall (input_fits co) evs -> input_fits co ev -> parts (run evs) c d l k x y ->
  step (run evs) ev = z_sub token ingress initial D w z0 ->
  z_c z0 = z_c (run evs) -> z_s z0 = z_s (run evs) -> z_ccids z0 = z_ccids (run evs) -> z_scids z0 = z_scids (run evs) -> z_clog z0 = z_clog (run evs) -> z_slog z0 = z_slog (run evs) ->
  mget l (z_links z0) = Some k0 -> unbroken k0 ->
  cact (z_c (run evs)) w = (c', os) ->
  sb_dropped c' = sb_dropped (z_c (run evs)) -> sb_pubs c' = sb_pubs (z_c (run evs)) -> sb_topics c' = sb_topics (z_c (run evs)) -> sb_cmdq c' = sb_cmdq (z_c (run evs)) ->
  (forall u, u <> c -> mget u (sb_conns c') = mget u (sb_conns (z_c (run evs)))) ->
  mget c (sb_conns c') = Some x' -> sc_alive x' = true -> sc_addr x' = sc_addr x ->
  Forall (fine_sub c) os ->
  (length (sb_out c') + x_work x' + length (written_on c os) < length (sb_out (z_c (run evs))) + x_work x + 3 * length (received_on c os))%nat ->
  better c d (run evs) (run (evs ++ [ev])).
Proof using TOK.
  intros F Fe P St Z1 Z2 Z3 Z4 Z5 Z6 G0 U0 A D1 D2 D3 D4 D5 D6 D7 D8 Fo Ar.
  pose proof (run_snoc evs ev) as E. rewrite St in E. unfold z_sub in E. rewrite Z1, A in E. set (z' := run (evs ++ [ev])) in *.
  destruct (view_get' _ _ _ _ _ (c_routes_frs (z_ccids z0) os (z_links z0)) G0) as (k' & G' & Ek).
  assert (F' : Forall (input_fits co) (evs ++ [ev])) by (apply Forall_app; split; [exact F|repeat constructor; exact Fe]).
  assert (P' : parts z' c d l k' x' y).
  { destruct P as [H1 H2 X1 X2 X3 Y K1 K2 K3 K4]. rewrite E. rewrite Z3 in G'. constructor; cbn [z_c z_s z_ccids z_scids z_links]; rewrite ?Z2, ?Z3, ?Z4, ?D1, ?D2, ?D8; try assumption. eapply unbroken_frs; eassumption. }
  split; [|split; [exact (of_parts _ _ _ _ _ _ _ P')|]].
  - rewrite E. constructor; cbn [z_c z_s z_ccids z_scids z_links z_clog z_slog]; rewrite ?Z2, ?Z3, ?Z4, ?Z5, ?Z6; auto.
    + exists os. auto.
    + exists []. split; [symmetry; apply app_nil_r|constructor].
  - pose proof (lens _ _ _ _ _ _ _ F P) as [L1 L2]. pose proof (lens _ _ _ _ _ _ _ F' P') as [L3 L4].
    pose proof (work_eq _ _ _ _ _ _ _ F' P') as W'. fold z' in W', L3, L4. rewrite (work_eq _ _ _ _ _ _ _ F P), W'.
    assert (Q1 : z_clog z' = z_clog (run evs) ++ os) by (rewrite E; cbn [z_clog]; rewrite Z5; reflexivity).
    assert (Q2 : z_slog z' = z_slog (run evs)) by (rewrite E; cbn [z_slog]; exact Z6).
    assert (Q3 : z_c z' = c') by (rewrite E; reflexivity). assert (Q4 : z_s z' = z_s (run evs)) by (rewrite E; cbn [z_s]; exact Z2).
    unfold y_work. rewrite Q1, Q2, rec_on_app, wok_on_app, !app_length in *. rewrite Q3, Q4. lia.
Qed.
(** ** A step of the publisher *)
Lemma pub_better evs ev w z0 s' os k0 c d l k x y y' :
  Forall (input_fits co) evs -> input_fits co ev -> parts (run evs) c d l k x y ->
  step (run evs) ev = z_pub max buf min auth co w z0 ->
  z_c z0 = z_c (run evs) -> z_s z0 = z_s (run evs) -> z_ccids z0 = z_ccids (run evs) -> z_scids z0 = z_scids (run evs) -> z_clog z0 = z_clog (run evs) -> z_slog z0 = z_slog (run evs) ->
  mget l (z_links z0) = Some k0 -> unbroken k0 ->
  sact (z_s (run evs)) w = (s', os) ->
  pb_closed s' = pb_closed (z_s (run evs)) -> pb_hist s' = pb_hist (z_s (run evs)) ->
  (forall u, u <> d -> mget u (pb_sess s') = mget u (pb_sess (z_s (run evs)))) ->
  mget d (pb_sess s') = Some y' ->
  Forall (fine_pub d) os ->
  (y_work (run evs) y' + 3 * length (taken_on d os) < y_work (run evs) y + length (controls_on d os))%nat ->
  better c d (run evs) (run (evs ++ [ev])).
Proof using TOK.
  intros F Fe P St Z1 Z2 Z3 Z4 Z5 Z6 G0 U0 A D1 D2 D3 D4 Fo Ar.
  pose proof (run_snoc evs ev) as E. rewrite St in E. unfold z_pub in E. rewrite Z2, A in E. set (z' := run (evs ++ [ev])) in *.
  destruct (view_get' _ _ _ _ _ (s_routes_frs (z_scids z0) os (z_links z0)) G0) as (k' & G' & Ek).
  assert (F' : Forall (input_fits co) (evs ++ [ev])) by (apply Forall_app; split; [exact F|repeat constructor; exact Fe]).
  assert (P' : parts z' c d l k' x y').
  { destruct P as [H1 H2 X1 X2 X3 Y K1 K2 K3 K4]. rewrite E. rewrite Z4 in G'. constructor; cbn [z_c z_s z_ccids z_scids z_links]; rewrite ?Z1, ?Z3, ?Z4, ?D1; try assumption. eapply unbroken_frs; eassumption. }
  split; [|split; [exact (of_parts _ _ _ _ _ _ _ P')|]].
  - rewrite E. constructor; cbn [z_c z_s z_ccids z_scids z_links z_clog z_slog]; rewrite ?Z1, ?Z3, ?Z4, ?Z5, ?Z6; auto.
    + exists []. split; [symmetry; apply app_nil_r|constructor].
    + exists os. auto.
  - pose proof (lens _ _ _ _ _ _ _ F P) as [L1 L2]. pose proof (lens _ _ _ _ _ _ _ F' P') as [L3 L4].
    pose proof (work_eq _ _ _ _ _ _ _ F' P') as W'. fold z' in W', L3, L4. rewrite (work_eq _ _ _ _ _ _ _ F P), W'.
    assert (Q1 : z_clog z' = z_clog (run evs)) by (rewrite E; cbn [z_clog]; exact Z5).
    assert (Q2 : z_slog z' = z_slog (run evs) ++ os) by (rewrite E; cbn [z_slog]; rewrite Z6; reflexivity).
    assert (Q3 : z_c z' = z_c (run evs)) by (rewrite E; cbn [z_c]; exact Z1). assert (Q4 : z_s z' = s') by (rewrite E; reflexivity).
    unfold y_work in *. rewrite Q1, Q2, PubNetP.ctl_on_app in *. rewrite Q3, Q4, D2. unfold taken_on in *. rewrite flat_map_app, !app_length in *. lia.
Qed.

(** ** What can be decompressed *)
Lemma accepted_received c m L : In m (accepted c L) -> In m (received_on c L).
Proof using.
  clear TOK. unfold accepted, received_on. rewrite !in_flat_map. intros (u & Hu & Hm). exists u. split; [exact Hu|].
  destruct u; try contradiction; repeat match type of Hm with context [match ?r with _ => _ end] => destruct r; try contradiction end; exact Hm.
Qed.
Lemma in_decompress evs c d l k x y m : (forall cm, co = Some cm -> inverse_of D cm) -> Forall (input_fits co) evs -> parts (run evs) c d l k x y -> In m (sc_in x) ->
  try_decompress D (tm_ctype m) (tm_payload m) <> None.
Proof using TOK.
  intros INV F P Hm. pose proof (sub_is_run token ingress initial D max buf min auth co TOK evs) as Rc. pose proof (SubDriverP2.run_connI token ingress initial D c _ _ _ Rc) as CI.
  pose proof (SubDriverP2.ci_in _ _ _ _ CI) as I. unfold SubDriverP2.inI in I. rewrite SubDriverP2.accepted_on, SubDriverP2.taken_on, (pt_x _ _ _ _ _ _ _ P) in I. destruct I as (I1 & I2 & _).
  destruct (sc_held x) eqn:Eh; [|destruct (I2 eq_refl) as (I3 & _); rewrite I3 in Hm; destruct Hm].
  assert (Ha : In m (map tmsg_of (accepted c (z_clog (run evs))))) by (rewrite (I1 eq_refl); apply in_or_app; right; exact Hm).
  apply in_map_iff in Ha. destruct Ha as (w & <- & Hw). apply accepted_received in Hw.
  destruct (logs _ _ _ _ _ _ _ F P) as (_ & E2 & E3 & _ & (r & P1) & _). assert (Ht : In w (taken_on d (z_slog (run evs)))) by (rewrite <- E3, P1; apply in_or_app; left; rewrite E2; exact Hw).
  apply taken_sent in Ht. destruct (sent_announced token ingress initial D max buf min auth co TOK evs d INV) as (qs & _ & Fq).
  clear - Fq Ht. induction Fq as [|q w' qs ws (K1 & K2) Fq IH]; [destruct Ht|]. destruct Ht as [->|Ht]; [|exact (IH Ht)]. cbn [tmsg_of tm_ctype tm_payload]. rewrite K2. discriminate.
Qed.

(** ** The steps of the subscriber *)
Ltac same_z := try reflexivity.
Lemma take_step evs c d l k x y : Forall (input_fits co) evs -> parts (run evs) c d l k x y -> sb_out (z_c (run evs)) <> [] -> better c d (run evs) (run (evs ++ [ZTake])).
Proof using TOK.
  intros F P Ho. destruct (sb_out (z_c (run evs))) as [|[[[u a] t] p] q] eqn:Eo; [congruence|].
  pose proof P as [H1 H2 X1 X2 X3 Y K1 K2 K3 K4].
  eapply (sub_better evs ZTake YTake (run evs) (sb_set_out (z_c (run evs)) q) [UYield u a t p] k c d l k x y x F I P); same_z; try assumption.
  - unfold sb_act, sb_take. rewrite Eo. reflexivity.
  - repeat constructor.
  - rewrite Eo. cbn. lia.
Qed.
Lemma entry_step evs c d l k x y now : 0 < ingress -> (forall cm, co = Some cm -> inverse_of D cm) -> Forall (input_fits co) evs -> parts (run evs) c d l k x y ->
  sb_out (z_c (run evs)) = [] -> sc_in x <> [] -> better c d (run evs) (run (evs ++ [ZEntry (sc_addr x) now])).
Proof using TOK.
  intros ING INV F P Ho Hi. destruct (sc_in x) as [|m rest] eqn:Ei; [congruence|].
  pose proof P as [H1 H2 X1 X2 X3 Y K1 K2 K3 K4].
  assert (Dm : try_decompress D (tm_ctype m) (tm_payload m) <> None) by (eapply in_decompress; [exact INV|exact F|exact P|rewrite Ei; left; reflexivity]).
  destruct (try_decompress D (tm_ctype m) (tm_payload m)) as [p|] eqn:Ed; [|congruence].
  eapply (sub_better evs (ZEntry (sc_addr x) now) (YEntry (sc_addr x) now) (run evs)
    (sb_set_out (sb_set_conns (z_c (run evs)) (mset c (sc_set_in x rest) (sb_conns (z_c (run evs))))) [(c, sc_addr x, tm_topic m, p)]) [UDeliver c m (sc_addr x) p TSent] k c d l k x y (sc_set_in x rest) F I P);
    same_z; try assumption.
  - unfold sb_act, sb_entry. rewrite X3, X1, Ei, Ed. unfold sb_pass. cbn [sb_set_conns sb_dropped sb_out]. rewrite H1, Ho. change (blen (@nil (N * addr * bytes * bytes))) with 0. apply N.ltb_lt in ING. rewrite ING. reflexivity.
  - intros u Hu. cbn [sb_set_out sb_set_conns sb_conns]. apply mget_set_ne. exact Hu.
  - cbn [sb_set_out sb_set_conns sb_conns]. apply mget_set_eq.
  - repeat constructor.
  - rewrite Ho. unfold x_work. rewrite Ei. cbn [sb_set_out sb_out sc_set_in sc_in sc_cmds sc_egress length written_on received_on flat_map]. lia.
Qed.
Lemma eg_all c eg : eg_loop c eg (repeat SaOk (length eg)) = ([], map (fun m => UWire c m true) eg, match eg with [] => false | _ => true end, match eg with [] => false | _ => true end).
Proof using. clear TOK. induction eg as [|m eg IH]; [reflexivity|]. cbn [eg_loop length repeat map]. rewrite IH. reflexivity. Qed.
Lemma written_map c eg : written_on c (map (fun m => UWire c m true) eg) = eg /\ received_on c (map (fun m => UWire c m true) eg) = [].
Proof using. clear TOK. induction eg as [|m eg [I1 I2]]; [split; reflexivity|]. cbn [map written_on received_on flat_map]. unfold written_on, received_on in *. rewrite I1, I2. destruct (eq_dec c c); [split; reflexivity|congruence]. Qed.

Definition se (x : sconn) (now : N) : yenv := mkYenv true PnPending (repeat SaOk (length (sc_egress x))) now.
Lemma poll_c evs c d l k x y : Forall (input_fits co) evs -> parts (run evs) c d l k x y -> exists r b, ps_poll (now_io (lk_c k)) (lk_c k) = (r, b) /\ unbroken (mkLink b (lk_s k)) /\
  ((r = PPending /\ en_items (lk_c k) = en_sent (lk_s k)) \/ exists m, r = PItem m).
Proof using TOK.
  intros F P. destruct (logs _ _ _ _ _ _ _ F P) as (E1 & E2 & E3 & E4 & _ & _ & O1 & O2 & LK). destruct (hs_both token auth k LK O1 O2) as [_ Hh].
  pose proof (run_JL token ingress initial D max buf min auth co evs _ _ (pt_k _ _ _ _ _ _ _ P)) as [J1 _]. destruct (pt_ok _ _ _ _ _ _ _ P) as (U1 & U2 & U3 & U4).
  assert (W : Forall ps_wf (en_sent (lk_s k))).
  { rewrite E3. eapply wf_taken; [exact (pub_is_run token ingress initial D max buf min auth co TOK evs)|]. intros m. apply (run_fit token ingress initial D max buf min auth co TOK evs F). }
  destruct (poll_now (lk_s k) (lk_c k) (proj1 (proj2 LK)) W Hh J1 (conj U1 U2)) as (r & b & E & (S1 & S2) & H). exists r, b. split; [exact E|]. split; [split; [exact S1|]; split; [exact S2|]; split; [exact U3|exact U4]|].
  destruct H as [(R1 & R2 & _)|(m & rest & R1 & _)]; [left; auto|right; eauto].
Qed.
Lemma sub_step evs c d l k x y now : now < 2 ^ 64 -> Forall (input_fits co) evs -> parts (run evs) c d l k x y -> sc_in x = [] ->
  better c d (run evs) (run (evs ++ [ZSub c (se x now) (now_io (lk_c k))])) \/
  (sc_egress x = [] /\ sc_cmds x = [] /\ en_items (lk_c k) = en_sent (lk_s k)).
Proof using TOK.
  intros Nw F P Hi. pose proof P as [H1 H2 X1 X2 X3 Y K1 K2 K3 K4].
  destruct (poll_c _ _ _ _ _ _ _ F P) as (r & b & Ep & Ub & Hr).
  set (ev := ZSub c (se x now) (now_io (lk_c k))).
  assert (Hh : sc_held x = true).
  { pose proof (sub_is_run token ingress initial D max buf min auth co TOK evs) as Rc. pose proof (SubDriverP.run_SI token ingress initial D _ _ _ Rc) as SI0.
    destruct (SubDriverP.si_act _ SI0 _ _ X3) as (x0 & A & _ & B). congruence. }
  set (w := YSess c (y_with_next (se x now) (pn_of r))). set (k0 := mkLink b (lk_s k)).
  assert (St : step (run evs) ev = z_sub token ingress initial D w (z_set_link l k0 (run evs))).
  { unfold ev, z_step, z_subsess, z_link_of. rewrite X1, X2, K1, K3, now_offered, Ep. reflexivity. }
  assert (Gl : mget l (z_links (z_set_link l k0 (run evs))) = Some k0) by (cbn [z_set_link z_links]; apply mget_set_eq).
  assert (fin : forall x' os, ss_iter c (y_with_next (se x now) (pn_of r)) x = (x', os, SCont) -> sc_alive x' = true -> sc_addr x' = sc_addr x -> Forall (fine_sub c) os ->
     (x_work x' + length (written_on c os) < x_work x + 3 * length (received_on c os))%nat -> better c d (run evs) (run (evs ++ [ev]))).
  { intros x' os It Al Ad Fo Ar.
    eapply (sub_better evs ev w (z_set_link l k0 (run evs)) (sb_set_conns (z_c (run evs)) (mset c x' (sb_conns (z_c (run evs))))) os k0 c d l k x y x' F Nw P St); same_z; try assumption.
    - unfold w, sb_act, sb_session. rewrite X1, X2, It. reflexivity.
    - intros u Hu. cbn [sb_set_conns sb_conns]. apply mget_set_ne. exact Hu.
    - cbn [sb_set_conns sb_conns]. apply mget_set_eq.
    - cbn [sb_set_conns sb_out]. lia. }
  destruct Hr as [(-> & Ei)|(m & ->)].
  - destruct (sc_egress x) as [|m0 eg0] eqn:Ee; [destruct (sc_cmds x) as [|cm cs] eqn:Ec|].
    + right. auto.
    + left. assert (Fr : cmd_frame now cm <> None).
      { pose proof (sub_is_run token ingress initial D max buf min auth co TOK evs) as Rc. destruct (run_events token ingress initial D max buf min auth co evs F) as [_ Fc].
        eapply (cmds_fit token ingress initial D _ _ _ _ _ _ now Rc Fc X1 X2). rewrite Ec. left. reflexivity. }
      destruct (cmd_frame now cm) as [fm|] eqn:Ef; [|congruence].
      eapply fin.
      * unfold ss_iter, se, y_with_next. cbn [y_next y_sends y_now y_flush pn_of sc_set_egress sc_egress sc_flush]. rewrite Ee. cbn [eg_loop]. cbn [sc_cmds sc_set_egress sc_set_cmds]. rewrite Ec, Ef. reflexivity.
      * exact X2.
      * reflexivity.
      * repeat constructor.
      * unfold x_work. cbn [sc_set_cmds sc_set_egress sc_in sc_cmds sc_egress app]. rewrite Ee, Ec, Hi. cbn [length written_on received_on flat_map app]. lia.
    + left. eapply fin.
      * unfold ss_iter, se, y_with_next. cbn [y_next y_sends y_now y_flush pn_of sc_set_egress sc_egress sc_flush]. rewrite eg_all, Ee. reflexivity.
      * exact X2.
      * reflexivity.
      * apply Forall_forall. intros u Hu. apply in_map_iff in Hu. destruct Hu as (m & <- & _). reflexivity.
      * destruct (written_map c (m0 :: eg0)) as [W1 W2]. rewrite W1, W2. unfold x_work. cbn [sc_set_egress sc_in sc_cmds sc_egress length]. rewrite Ee, Hi. cbn [length]. lia.
  - left. eapply fin.
    + unfold ss_iter, se, y_with_next. cbn [y_next y_sends y_now y_flush pn_of]. unfold ss_incoming. cbn [sc_set_egress sc_held sc_in]. rewrite Hh, Hi. cbn [negb]. change (blen (@nil tmsg) <? IN_CAP) with true. reflexivity.
    + exact X2.
    + reflexivity.
    + repeat constructor.
    + unfold x_work. cbn [sc_set_in sc_set_stats sc_set_egress sc_in sc_cmds sc_egress length written_on received_on flat_map app]. rewrite Hi. cbn [length]. destruct (eq_dec c c); [|congruence]. cbn [app length]. lia.
Qed.

(** ** The steps of the publisher *)
Definition pe (now : N) : senv := mkSenv true true true true now PnPending.
Lemma poll_s evs c d l k x y : Forall (input_fits co) evs -> parts (run evs) c d l k x y -> exists r b, ps_poll (now_io (lk_s k)) (lk_s k) = (r, b) /\ unbroken (mkLink (lk_c k) b) /\
  ((r = PPending /\ en_items (lk_s k) = en_sent (lk_c k)) \/ exists m, r = PItem m).
Proof using TOK.
  intros F P. destruct (logs _ _ _ _ _ _ _ F P) as (E1 & E2 & E3 & E4 & _ & _ & O1 & O2 & LK). destruct (hs_both token auth k LK O1 O2) as [Hh _].
  pose proof (run_JL token ingress initial D max buf min auth co evs _ _ (pt_k _ _ _ _ _ _ _ P)) as [_ J1]. destruct (pt_ok _ _ _ _ _ _ _ P) as (U1 & U2 & U3 & U4).
  assert (W : Forall ps_wf (en_sent (lk_c k))).
  { rewrite E1. eapply Forall_impl; [|eapply wf_written; [exact (sub_is_run token ingress initial D max buf min auth co TOK evs)|]]; [cbn; tauto|]. intros m. apply (run_fit token ingress initial D max buf min auth co TOK evs F). }
  destruct (poll_now (lk_c k) (lk_s k) (proj1 LK) W Hh J1 (conj U3 U4)) as (r & b & E & (S1 & S2) & H). exists r, b. split; [exact E|]. split; [split; [exact U1|]; split; [exact U2|]; split; [exact S1|exact S2]|].
  destruct H as [(R1 & R2 & _)|(m & rest & R1 & _)]; [left; auto|right; eauto].
Qed.
Lemma pub_step evs c d l k x y now : now < 2 ^ 64 -> Forall (input_fits co) evs -> parts (run evs) c d l k x y ->
  better c d (run evs) (run (evs ++ [ZPub d (pe now) (now_io (lk_s k))])) \/
  (sn_pending y = None /\ sn_pos y = blen (pb_hist (z_s (run evs))) /\ en_items (lk_s k) = en_sent (lk_c k)).
Proof using TOK.
  intros Nw F P. pose proof P as [H1 H2 X1 X2 X3 Y K1 K2 K3 K4].
  set (ev := ZPub d (pe now) (now_io (lk_s k))).
  pose proof (pub_is_run token ingress initial D max buf min auth co TOK evs) as Rs. destruct (PubDriverP4.run_tinv _ _ _ _ _ _ _ _ Rs) as [_ T].
  assert (Hp : sn_pos y <= blen (pb_hist (z_s (run evs)))) by (rewrite (PubDriverP2.ti_hist _ _ _ T); exact (PubDriverP2.si_pos _ _ _ (PubDriverP2.ti_sess _ _ _ T _ _ Y))).
  assert (fin : forall e k0 z0 y' dt os r, step (run evs) ev = z_pub max buf min auth co (WSession d e) z0 -> z0 = run evs /\ k0 = k \/ z0 = z_set_link l k0 (run evs) -> unbroken k0 ->
     sn_iter buf d e (pb_hist (z_s (run evs))) (pb_closed (z_s (run evs))) y = (y', dt, os, r) -> r = SCont \/ r = SPend -> Forall (fine_pub d) os ->
     (y_work (run evs) y' + 3 * length (taken_on d os) < y_work (run evs) y + length (controls_on d os))%nat -> better c d (run evs) (run (evs ++ [ev]))).
  { intros e k0 z0 y' dt os r St Hz Hu It Hr Fo Ar.
    eapply (pub_better evs ev (WSession d e) z0 (mkPb (pb_active (z_s (run evs))) (pb_conns (z_s (run evs))) (pb_auths (z_s (run evs))) (mset d y' (pb_sess (z_s (run evs)))) (pb_hist (z_s (run evs))) (pb_closed (z_s (run evs))) (pb_next_cid (z_s (run evs))) (pb_tx (z_s (run evs)) + dt))
       os k0 c d l k x y y' F Nw P St); try (destruct Hz as [[-> _]| ->]; reflexivity); try reflexivity; try assumption.
    - destruct Hz as [[-> ->]| ->]; [exact K3|cbn [z_set_link z_links]; apply mget_set_eq].
    - unfold pb_act, pb_session. rewrite Y, It. destruct Hr as [-> | ->]; reflexivity.
    - intros u Hu'. cbn [pb_sess]. apply mget_set_ne. exact Hu'.
    - cbn [pb_sess]. apply mget_set_eq. }
  destruct (sn_pending y) as [m|] eqn:Em.
  { left. eapply (fin (s_with_next (pe now) PnPending) k (run evs)).
    - unfold ev, z_step, z_pubsess, z_link_of, s_wants_next. rewrite Y, K2, K3, Em. cbn [pe s_ready andb]. reflexivity.
    - left. split; reflexivity.
    - exact K4.
    - unfold sn_iter. cbn [s_with_next pe s_ready s_send sn_pending]. rewrite Em. reflexivity.
    - left. reflexivity.
    - repeat constructor.
    - unfold y_work. rewrite Em. cbn [sn_pos sn_pending taken_on controls_on flat_map app length]. destruct (eq_dec d d); [|congruence]. cbn [app length]. lia. }
  set (hist := pb_hist (z_s (run evs))) in *.
  destruct (N.eqb_spec (sn_pos y) (blen hist)) as [Ep|Ep].
  - destruct (poll_s _ _ _ _ _ _ _ F P) as (r & b & Epl & Ub & Hr).
    assert (Wn : s_wants_next buf (pe now) (z_s (run evs)) y = true). { unfold s_wants_next, bcast_recv. rewrite Em, H2. fold hist. rewrite Ep, N.eqb_refl. reflexivity. }
    destruct Hr as [(-> & Ei)|(m & ->)]; [right; auto|]. left.
    destruct (sess_wants buf _ _ _ Wn d (PnMsg m)) as (y' & dt & It).
    assert (It' := It). unfold sn_iter in It'. cbn [s_with_next pe s_ready s_next sn_pending sn_pos] in It'. rewrite Em in It'. unfold bcast_recv in It'. fold hist in It'. rewrite H2, Ep, N.eqb_refl in It'. inversion It' as [[Ey Edt]]. clear It'.
    eapply (fin (s_with_next (pe now) (PnMsg m)) (mkLink (lk_c k) b) (z_set_link l (mkLink (lk_c k) b) (run evs)) y' dt).
    + unfold ev, z_step, z_pubsess, z_link_of. rewrite Y, K2, K3, Wn, now_offered, Epl. reflexivity.
    + right. reflexivity.
    + exact Ub.
    + exact It.
    + left. reflexivity.
    + repeat constructor.
    + unfold y_work. fold hist. rewrite <- Ey, Em. cbn [sn_pos sn_pending taken_on controls_on flat_map app length]. rewrite <- Ep. destruct (eq_dec d d); [|congruence]. cbn [app length]. lia.
  - left. assert (Wn : s_wants_next buf (pe now) (z_s (run evs)) y = false).
    { unfold s_wants_next, bcast_recv. rewrite Em. fold hist. destruct (N.eqb_spec (sn_pos y) (blen hist)); [congruence|]. destruct (_ <? _); reflexivity. }
    assert (Hlt : sn_pos y < blen hist) by lia.
    assert (St : step (run evs) ev = z_pub max buf min auth co (WSession d (s_with_next (pe now) PnPending)) (run evs)).
    { unfold ev, z_step, z_pubsess, z_link_of. rewrite Y, K2, K3, Wn. reflexivity. }
    assert (Ex : exists y' os, sn_iter buf d (s_with_next (pe now) PnPending) hist (pb_closed (z_s (run evs))) y = (y', 0, os, SCont) /\ Forall (fine_pub d) os /\
       taken_on d os = [] /\ (y_work (run evs) y' < y_work (run evs) y)%nat).
    { unfold sn_iter. cbn [s_with_next pe s_ready s_now sn_pending sn_pos sn_seq sn_filter]. rewrite Em. unfold bcast_recv. destruct (N.eqb_spec (sn_pos y) (blen hist)); [congruence|].
      destruct (N.ltb_spec (sn_pos y + bcast_cap buf) (blen hist)) as [Lg|Lg].
      - eexists _, _. split; [reflexivity|]. split; [repeat constructor|]. split; [reflexivity|]. unfold y_work. fold hist. rewrite Em. cbn [sn_pos sn_pending]. unfold blen in *.
        assert (Cp : 0 < bcast_cap buf) by (unfold bcast_cap; apply N.neq_0_lt_0, N.pow_nonzero; discriminate). lia.
      - destruct (nth_error hist (N.to_nat (sn_pos y))) as [p|] eqn:En; [|apply nth_error_None in En; unfold blen in *; lia].
        destruct (trie_contains (sn_filter y) (pm_topic p)).
        + assert (Ft : blen (pm_topic p) < 2 ^ 16) by (eapply (hist_fit token ingress initial D max buf min auth co TOK evs); [exact F|eapply nth_error_In; exact En]).
          unfold pub_into_wire, ps_new. destruct (N.ltb_spec (blen (pm_topic p)) (2 ^ 16)); [|exfalso; apply (N.lt_irrefl (2 ^ 16)); eapply N.le_lt_trans; eassumption].
          eexists _, _. split; [reflexivity|]. split; [repeat constructor|]. split; [reflexivity|]. unfold y_work. fold hist. rewrite Em. cbn [sn_pos sn_pending]. unfold blen in *. lia.
        + eexists _, _. split; [reflexivity|]. split; [repeat constructor|]. split; [reflexivity|]. unfold y_work. fold hist. rewrite Em. cbn [sn_pos sn_pending]. unfold blen in *. lia. }
    destruct Ex as (y' & os & It & Fo & Ht & Wk).
    eapply (fin (s_with_next (pe now) PnPending) k (run evs) y' 0 os SCont St); [left; split; reflexivity|exact K4|exact It|left; reflexivity|exact Fo|]. rewrite Ht. cbn [length]. lia.
Qed.

(** ** Progress *)
Lemma now_data_only b : data_only (now_io b).
Proof using. clear TOK. intros i Hi. exact (now_data b i Hi). Qed.
Lemma progress evs c d now : 0 < ingress -> (forall cm, co = Some cm -> inverse_of D cm) -> now < 2 ^ 64 -> Forall (input_fits co) evs -> in_touch (run evs) c d ->
  all_done (run evs) c d \/ exists ev, helpful now c d ev /\ input_fits co ev /\ better c d (run evs) (run (evs ++ [ev])).
Proof using TOK.
  intros ING INV Nw F T. destruct (parts_of _ _ _ T) as (l & k & x & y & P).
  destruct (sb_out (z_c (run evs))) as [|q o] eqn:Eo; [|right; exists ZTake; split; [exact I|]; split; [exact I|]; eapply take_step; [exact F|exact P|rewrite Eo; discriminate]].
  destruct (sc_in x) as [|m i] eqn:Ei; [|right; exists (ZEntry (sc_addr x) now); split; [exact I|]; split; [exact I|]; eapply entry_step; [exact ING|exact INV|exact F|exact P|exact Eo|rewrite Ei; discriminate]].
  destruct (sub_step _ _ _ _ _ _ _ now Nw F P Ei) as [B|(Eg & Ec & Er)].
  { right. exists (ZSub c (se x now) (now_io (lk_c k))). split; [|split; [exact Nw|exact B]]. repeat split; try apply now_data_only.
    intros a Ha. cbn [se y_sends] in Ha. apply repeat_spec in Ha. exact Ha. }
  destruct (pub_step _ _ _ _ _ _ _ now Nw F P) as [B|(Epn & Epo & Es)].
  { right. exists (ZPub d (pe now) (now_io (lk_s k))). split; [|split; [exact Nw|exact B]]. repeat split; apply now_data_only. }
  left. destruct (logs _ _ _ _ _ _ _ F P) as (_ & _ & _ & _ & _ & _ & O1 & O2 & LK). destruct (hs_both token auth k LK O1 O2) as [Hs Hc].
  destruct P as [H1 H2 X1 X2 X3 Y K1 K2 K3 K4].
  split; [exact Eo|]. split; [exists x; auto|]. split; [exists y; auto|]. exists l, k. split; [exact K1|]. split; [exact K2|]. split; [exact K3|].
  split; [exact (all_items _ _ (proj1 (proj2 LK)) Hc Er)|exact (all_items _ _ (proj1 LK) Hs Es)].
Qed.
Theorem way evs c d now : 0 < ingress -> (forall cm, co = Some cm -> inverse_of D cm) -> now < 2 ^ 64 -> Forall (input_fits co) evs -> in_touch (run evs) c d ->
  exists more, Forall (helpful now c d) more /\ Forall (input_fits co) more /\ (length more <= work_to_do (run evs) c d)%nat /\
    near c d (run evs) (run (evs ++ more)) /\ in_touch (run (evs ++ more)) c d /\ all_done (run (evs ++ more)) c d.
Proof using TOK.
  intros ING INV Nw. remember (work_to_do (run evs) c d) as n eqn:En. revert evs En.
  induction n as [n IH] using lt_wf_ind. intros evs En F T.
  destruct (progress evs c d now ING INV Nw F T) as [Dn|(ev & He & Fe & (Nr & T' & Wk))].
  - exists []. rewrite app_nil_r. split; [constructor|]. split; [constructor|]. split; [cbn; lia|]. split; [apply near_refl|]. auto.
  - assert (F' : Forall (input_fits co) (evs ++ [ev])) by (apply Forall_app; split; [exact F|repeat constructor; exact Fe]).
    destruct (IH (work_to_do (run (evs ++ [ev])) c d) ltac:(lia) (evs ++ [ev]) eq_refl F' T') as (more & M1 & M2 & M3 & M4 & M5 & M6).
    exists (ev :: more). rewrite <- app_assoc in M4, M5, M6. cbn [app] in M4, M5, M6. split; [constructor; assumption|]. split; [constructor; assumption|]. split; [cbn [length]; lia|].
    split; [eapply near_trans; eassumption|]. auto.
Qed.
End Z.
