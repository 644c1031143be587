(** The joint model of a subscriber and a publisher socket: the invariant of the system; the steps of the subscriber. *)
From Coq Require Import ZArith Permutation.
From Verif Require Import Model.Base Model.Map Model.Framed Model.WirePubSub Model.WireAuth Model.Compression Model.Handshake Model.JoinMap Model.Trie Model.PubDriver Model.SubDriver Model.Net Model.PubSubNet
  Spec.Wire Spec.Stream Spec.AuthSpec Spec.PubSpec Spec.SubSpec Spec.NetSpec2
  Proofs.BaseP Proofs.MapP Proofs.FramedP2 Proofs.PubSubP Proofs.AuthP Proofs.HandshakeP Proofs.HandshakeP2 Proofs.NetP
  Proofs.PubSubNetP Proofs.PubSubNetP2 Proofs.PubNetP Proofs.SubNetP.
From Verif Require Proofs.TrieP Proofs.T_Pub Proofs.SubDriverP.
Local Open Scope N_scope.

Lemma mset_mset (l : N) (a b : plink) ls : mset l a (mset l b ls) = mset l a ls.
Proof. induction ls as [|[x v] ls IH]; cbn [mset]; [destruct (eq_dec l l); congruence|]. destruct (eq_dec l x) as [->|]; cbn [mset]; [destruct (eq_dec x x); congruence|]. destruct (eq_dec l x); [congruence|]. rewrite IH. reflexivity. Qed.
Lemma numbered_set l ls k k' : numbered ls -> mget l ls = Some k -> numbered (mset l k' ls).
Proof.
  intros Nm G. assert (S : same_view (fun _ => tt) ls (mset l k' ls)) by (eapply same_view_set; [exact G|reflexivity]).
  eapply numbered_view; eauto.
Qed.
Definition cinj (cids : list (N * N)) : Prop := forall c c' l, mget c cids = Some l -> mget c' cids = Some l -> c = c'.

(** * Routes *)
Section R.
Context {X : Type} (tgt : X -> option (N * (plink -> plink))).
Definition grt (cids : list (N * N)) (ls : list (N * plink)) (x : X) := match tgt x with Some (c, f) => on_link cids ls c f | None => ls end.
Definition geff (cid : N) (k : plink) (x : X) : plink := match tgt x with Some (c, f) => if eq_dec c cid then f k else k | None => k end.

Lemma grts_view {V} (g : plink -> V) cids os : (forall x c f k, In x os -> tgt x = Some (c, f) -> g (f k) = g k) -> forall ls, same_view g ls (fold_left (grt cids) os ls).
Proof.
  induction os as [|x os IH]; intros H ls; cbn [fold_left]; [apply same_view_refl|]. eapply same_view_trans; [|apply IH; intros y c f k Hy; apply H; right; exact Hy].
  unfold grt. destruct (tgt x) as [[c f]|] eqn:E; [|apply same_view_refl]. unfold on_link. destruct (mget c cids) as [l|]; [|apply same_view_refl]. destruct (mget l ls) as [k|] eqn:G; [|apply same_view_refl].
  eapply same_view_set; [exact G|]. eapply H; [left; reflexivity|exact E].
Qed.
Lemma grt_get cids ls x l : cinj cids ->
  (forall cid, mget cid cids = Some l -> mget l (grt cids ls x) = option_map (fun k => geff cid k x) (mget l ls)) /\
  ((forall cid, mget cid cids <> Some l) -> mget l (grt cids ls x) = mget l ls).
Proof.
  intros Inj. assert (Id : forall v : option plink, option_map (fun k => k) v = v) by (intros [v|]; reflexivity).
  unfold grt, geff, on_link. destruct (tgt x) as [[cid f]|]; [|split; intros; [symmetry; apply Id|reflexivity]]. split.
  - intros c Hc. destruct (eq_dec cid c) as [->|Ne].
    + rewrite Hc. destruct (mget l ls) as [k|] eqn:G; [rewrite mget_set_eq; reflexivity|rewrite G; reflexivity].
    + rewrite Id. destruct (mget cid cids) as [l'|] eqn:Gc; [|reflexivity]. destruct (mget l' ls) as [k|]; [|reflexivity]. apply mget_set_ne. intros ->. apply Ne. eapply Inj; eauto.
  - intros Hn. destruct (mget cid cids) as [l'|] eqn:Gc; [|reflexivity]. destruct (mget l' ls) as [k|]; [|reflexivity]. apply mget_set_ne. intros ->. eapply Hn; eauto.
Qed.
Lemma grts_get cids os l : cinj cids -> forall ls,
  (forall cid, mget cid cids = Some l -> mget l (fold_left (grt cids) os ls) = option_map (fun k => fold_left (geff cid) os k) (mget l ls)) /\
  ((forall cid, mget cid cids <> Some l) -> mget l (fold_left (grt cids) os ls) = mget l ls).
Proof.
  intros Inj. induction os as [|x os IH]; intros ls; cbn [fold_left]; [split; [intros; destruct (mget l ls); reflexivity|reflexivity]|].
  destruct (IH (grt cids ls x)) as [H1 H2]. destruct (grt_get cids ls x l Inj) as [R1 R2]. split.
  - intros cid Hc. rewrite (H1 _ Hc), (R1 _ Hc). destruct (mget l ls); reflexivity.
  - intros Hn. rewrite (H2 Hn). apply R2, Hn.
Qed.
Lemma geff_none cid os : (forall x c f, In x os -> tgt x = Some (c, f) -> c <> cid) -> forall k, fold_left (geff cid) os k = k.
Proof.
  induction os as [|x os IH]; intros H k; [reflexivity|]. cbn [fold_left]. rewrite IH by (intros y c f Hy; apply H; right; exact Hy).
  unfold geff. destruct (tgt x) as [[c f]|] eqn:E; [|reflexivity]. destruct (eq_dec c cid) as [->|]; [|reflexivity]. exfalso. eapply H; [left; reflexivity|exact E|reflexivity].
Qed.
Lemma grts_none cids os : (forall x c f, In x os -> tgt x = Some (c, f) -> mget c cids = None) -> forall ls, fold_left (grt cids) os ls = ls.
Proof.
  induction os as [|x os IH]; intros H ls; [reflexivity|]. cbn [fold_left]. rewrite IH by (intros y c f Hy; apply H; right; exact Hy).
  unfold grt, on_link. destruct (tgt x) as [[c f]|] eqn:E; [|reflexivity]. rewrite (H x c f (or_introl eq_refl) E). reflexivity.
Qed.
End R.
Lemma fold_ext {A B} (f g : A -> B -> A) l : (forall a b, f a b = g a b) -> forall a, fold_left f l a = fold_left g l a.
Proof. intros H. induction l as [|b l IH]; intros a; [reflexivity|]. cbn [fold_left]. rewrite H. apply IH. Qed.

Definition c_tgt (x : uout) : option (N * (plink -> plink)) := match x with UWire c m true => Some (c, link_c_send ps_encode [m]) | _ => None end.
Definition s_tgt (x : qout) : option (N * (plink -> plink)) :=
  match x with
  | QHanded c m true => Some (c, link_s_send ps_encode [m])
  | QAuthReply c w => Some (c, link_s_greet w)
  | QOpen c => Some (c, fun k => mkLink (lk_c k) (end_on (lk_s k)))
  | _ => None
  end.
Notation c_eff := (geff c_tgt).
Notation s_eff := (geff s_tgt).
Lemma c_routes cids os ls : fold_left (c_route cids) os ls = fold_left (grt c_tgt cids) os ls.
Proof. apply fold_ext. intros a x. unfold grt, c_tgt, c_route. destruct x as [| | | | | | | | | |c m [|]| | | | | | | | | | |]; reflexivity. Qed.
Lemma s_routes cids os ls : fold_left (s_route cids) os ls = fold_left (grt s_tgt cids) os ls.
Proof. apply fold_ext. intros a x. unfold grt, s_tgt, s_route. destruct x as [| | | | | |c m [|]| | | | | | | |]; reflexivity. Qed.
Lemma c_tgt_ment x c f : c_tgt x = Some (c, f) -> cment c x /\ forall k, sview (f k) = sview k.
Proof. destruct x as [| | | | | | | | | |c' m [|]| | | | | | | | | | |]; try discriminate. intros H; inversion H; subst. split; reflexivity. Qed.
Lemma s_tgt_ment x c f : s_tgt x = Some (c, f) -> mentions c x /\ forall k, cview (f k) = cview k.
Proof. destruct x as [| | | | | |c' m [|]| | | | | | | |]; try discriminate; intros H; inversion H; subst; split; reflexivity. Qed.
Lemma c_view cids os ls : same_view sview ls (fold_left (c_route cids) os ls).
Proof. rewrite c_routes. apply grts_view. intros x c f k _ H. apply c_tgt_ment in H. apply H. Qed.
Lemma s_view cids os ls : same_view cview ls (fold_left (s_route cids) os ls).
Proof. rewrite s_routes. apply grts_view. intros x c f k _ H. apply s_tgt_ment in H. apply H. Qed.

Lemma mapped_dec (cids : list (N * N)) l : (exists cid, mget cid cids = Some l) \/ (forall cid, mget cid cids <> Some l).
Proof.
  destruct (existsb (fun c => match mget c cids with Some l' => l' =? l | None => false end) (mkeys cids)) eqn:Eb.
  - left. apply existsb_exists in Eb. destruct Eb as (cid & _ & Eb). destruct (mget cid cids) as [l2|] eqn:G2; [|discriminate]. apply N.eqb_eq in Eb. subst. eauto.
  - right. intros cid H. assert (K : In cid (mkeys cids)) by (apply mget_keys; congruence).
    assert (F : existsb (fun c => match mget c cids with Some l' => l' =? l | None => false end) (mkeys cids) = true); [|congruence].
    apply existsb_exists. exists cid. split; [exact K|]. rewrite H. apply N.eqb_refl.
Qed.

Section Z.
Variables (token : option bytes) (ingress initial : N) (D : decompressors)
          (max : option N) (buf min : N) (auth : option (bytes -> bool)) (co : option compressor).
Hypothesis TOK : forall t, token = Some t -> blen t < 2 ^ 32.
Notation LOK := (link_ok token auth).
Notation cact := (sb_act token ingress initial D).

Definition CI (c : sb) (cevs : list sb_event) (clog : list uout) (ccids : list (N * N)) (tasks : list (addr * (N * bool))) (ls : list (N * plink)) : Prop :=
  sb_run token ingress initial D sb_init cevs = (c, clog) /\
  numbered ls /\ cinj ccids /\
  (forall cid l, mget cid ccids = Some l -> cid < sb_next c /\ exists k, mget l ls = Some k) /\
  (forall cid l k, mget cid ccids = Some l -> mget l ls = Some k -> en_on (lk_c k) = true /\ en_sent (lk_c k) = wok_on cid clog /\ en_items (lk_c k) = received_on cid clog) /\
  (forall a l ok, mget a tasks = Some (l, ok) -> (exists k, mget l ls = Some k) /\ forall cid, mget cid ccids <> Some l) /\
  (forall a a' l ok ok', mget a tasks = Some (l, ok) -> mget a' tasks = Some (l, ok') -> a = a') /\
  (forall l k, mget l ls = Some k -> (forall cid, mget cid ccids <> Some l) -> en_on (lk_c k) = false) /\
  (forall cid, sb_next c <= cid -> wok_on cid clog = [] /\ received_on cid clog = []).
Definition LI (ls : list (N * plink)) : Prop := forall l k, mget l ls = Some k -> LOK k.
Definition SI (s : pb) (sevs : list pb_event) (slog : list qout) (backlog : list N) (cids : list (N * N)) (ls : list (N * plink)) : Prop :=
  pb_run max buf min auth co pb_init sevs = (s, slog) /\
  cinj cids /\
  (forall cid l, mget cid cids = Some l -> cid < pb_next_cid s /\ exists k, mget l ls = Some k) /\
  (forall l, In l backlog -> (exists k, mget l ls = Some k) /\ forall cid, mget cid cids <> Some l) /\
  (forall l k, mget l ls = Some k -> (forall cid, mget cid cids <> Some l) -> fresh_s k) /\
  (forall cid l k, mget cid cids = Some l -> mget l ls = Some k ->
     en_sent (lk_s k) = tak_on cid slog /\ en_items (lk_s k) = ctl_on cid slog /\ (pend s cid -> fresh_s k) /\ (opn s cid -> en_on (lk_s k) = true)) /\
  (forall c, pb_next_cid s <= c -> tak_on c slog = [] /\ ctl_on c slog = []).
Definition ZI (z : zsys) : Prop :=
  CI (z_c z) (z_cevs z) (z_clog z) (z_ccids z) (z_tasks z) (z_links z) /\ LI (z_links z) /\
  SI (z_s z) (z_sevs z) (z_slog z) (z_backlog z) (z_scids z) (z_links z).

(** ** Transfer *)
Lemma CI_view c cevs clog ccids tasks ls ls' : CI c cevs clog ccids tasks ls -> same_view cview ls ls' -> CI c cevs clog ccids tasks ls'.
Proof using.
  clear TOK. intros (C1 & C2 & C3 & C4 & C5 & C6 & C7 & C8 & C9) V.
  assert (Ex : forall l, (exists k, mget l ls = Some k) -> exists k, mget l ls' = Some k).
  { intros l (k & H). destruct (view_get' _ _ _ _ _ V H) as (k' & H' & _). eauto. }
  split; [exact C1|]. split; [eapply numbered_view; eauto|]. split; [exact C3|].
  split; [intros cid l H; destruct (C4 cid l H) as [A B]; auto|].
  split; [intros cid l k' H G; destruct (view_get _ _ _ _ _ V G) as (k & G0 & E); apply noin_inv in E; destruct E as (_ & _ & E3 & _ & E5 & E6); rewrite E3, E5, E6; eapply C5; eauto|].
  split; [intros a l ok H; destruct (C6 a l ok H) as [A B]; auto|]. split; [exact C7|].
  split; [intros l k' G Hn; destruct (view_get _ _ _ _ _ V G) as (k & G0 & E); apply noin_inv in E; destruct E as (_ & _ & _ & _ & _ & E6); rewrite E6; eapply C8; eauto|exact C9].
Qed.
Lemma fresh_view k k' : sview k' = sview k -> fresh_s k -> fresh_s k'.
Proof using. unfold fresh_s. congruence. Qed.
Lemma SI_view s sevs slog backlog cids ls ls' : SI s sevs slog backlog cids ls -> same_view sview ls ls' -> SI s sevs slog backlog cids ls'.
Proof using.
  clear TOK. intros (S1 & S2 & S3 & S4 & S5 & S6 & S7) V.
  split; [exact S1|]. split; [exact S2|].
  assert (Ex : forall l, (exists k, mget l ls = Some k) -> exists k, mget l ls' = Some k).
  { intros l (k & H). destruct (view_get' _ _ _ _ _ V H) as (k' & H' & _). eauto. }
  split; [intros cid l H; destruct (S3 cid l H) as [A B]; auto|]. split; [intros l H; destruct (S4 l H) as [A B]; auto|].
  split; [|split; [|exact S7]].
  - intros l k G Hn. destruct (view_get _ _ _ _ _ V G) as (k0 & G0 & E). eapply fresh_view; [exact E|]. eapply S5; eauto.
  - intros cid l k Hc G. destruct (view_get _ _ _ _ _ V G) as (k0 & G0 & E). destruct (S6 _ _ _ Hc G0) as (A & B & C & Dd). pose proof E as E'. apply noin_inv in E'. destruct E' as (_ & _ & E3 & _ & E5 & E6).
    rewrite E3, E5, E6. split; [exact A|]. split; [exact B|]. split; [|exact Dd]. intros P. eapply fresh_view; eauto.
Qed.

(** The publisher sends nothing on a connection on which it has received nothing. *)
Lemma handed_control sevs s slog : pb_run max buf min auth co pb_init sevs = (s, slog) -> forall cid, ctl_on cid slog = [] -> tak_on cid slog = [].
Proof using.
  clear TOK. intros R cid I. destruct (tak_on cid slog) as [|m ms] eqn:T; [reflexivity|exfalso].
  assert (H : In m (sent_to cid slog)).
  { assert (H : In (QHanded cid m true) slog) by (apply in_tak; rewrite T; left; reflexivity). unfold sent_to. apply in_flat_map. eexists. split; [exact H|]. cbn. destruct (eq_dec cid cid); [left; reflexivity|congruence]. }
  destruct (T_Pub.C33_in_order_no_duplicates_pf _ _ _ _ _ _ _ _ cid R) as (is & _ & Du & F2 & _).
  destruct is as [|i is]; [destruct (sent_to cid slog); [contradiction|inversion F2]|]. inversion Du as [|? ? (before & after & p & E & _ & Ct) _]; subst.
  assert (O : ops_of cid before = []).
  { destruct (ops_of cid before) as [|op ops] eqn:O; [reflexivity|exfalso]. assert (Ho : In op (ops_of cid before)) by (rewrite O; left; reflexivity). unfold ops_of in Ho. apply in_flat_map in Ho. destruct Ho as (x & Hx & Ho).
    destruct x as [| | | | |c' m' [op'|]| | | | | | | | |]; try contradiction. destruct (eq_dec c' cid); [|contradiction]. subst.
    assert (Hc : In m' (ctl_on cid (before ++ QTook cid i :: after))) by (apply in_ctl; exists (Some op'); apply in_or_app; left; exact Hx). rewrite I in Hc. contradiction. }
  rewrite O in Ct. unfold trie_run in Ct. cbn in Ct. unfold trie_contains in Ct. cbn in Ct. destruct (split_dot (pm_topic p)) as [|? [|? ?]]; cbn in Ct; discriminate.
Qed.
Lemma quiet_server z l k : ZI z -> mget l (z_links z) = Some k -> en_sent (lk_c k) = [] -> en_sent (lk_s k) = [].
Proof using.
  clear TOK. intros (C & L & (S1 & S2 & S3 & S4 & S5 & S6 & S7)) G Se. pose proof (no_items_s _ _ _ (L _ _ G) Se) as It.
  destruct (mapped_dec (z_scids z) l) as [(cid & Hc)|Hn].
  - destruct (S6 _ _ _ Hc G) as (A & B & _). rewrite A. eapply handed_control; [exact S1|congruence].
  - pose proof (fresh_fields _ (S5 _ _ G Hn)) as F. apply F.
Qed.
End Z.
