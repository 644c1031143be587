(** The joint model of a subscriber and a publisher socket (Model/PubSubNet.v): connections. *)
From Coq Require Import ZArith Permutation.
From Verif Require Import Model.Base Model.Map Model.Framed Model.WirePubSub Model.WireAuth Model.Compression Model.Handshake Model.Trie Model.PubDriver Model.SubDriver Model.Net Model.PubSubNet
  Spec.Wire Spec.Stream Spec.AuthSpec
  Proofs.BaseP Proofs.MapP Proofs.FramedP2 Proofs.PubSubP Proofs.AuthP Proofs.HandshakeP Proofs.HandshakeP2 Proofs.NetP.
Local Open Scope N_scope.

(** * The codec *)
Lemma ps_item_wf s b m s' r : ps_ok s -> ps_decode s b = DMsg m s' r -> ps_wf m.
Proof.
  intros Ok Dc.
  destruct (ps_cases_all s b Ok) as [->|x b' -> -> Hx|b' -> -> Hl|c b2 b3 b' -> -> Hl|c b2 b3 topic tsb seqb szb r0 -> -> Ht H8 H4 Hs Hr|c b2 b3 topic tsb seqb szb p r0 -> -> Ht H8 H4 Hs Hp|h -> Hl|h p r0 -> -> Hp]; subst; cbn [ps_decode] in Dc.
  - discriminate.
  - rewrite ps_header_foreign in Dc by assumption. discriminate.
  - rewrite ps_header_short4 in Dc by assumption. discriminate.
  - rewrite ps_header_short in Dc by assumption. discriminate.
  - rewrite ps_header_full in Dc by assumption. rewrite ps_payload_short in Dc by assumption. discriminate.
  - rewrite ps_header_full in Dc by assumption. rewrite ps_payload_full in Dc by assumption. inversion Dc; subst.
    destruct (mk_hdr_ok c b2 b3 topic tsb seqb szb Ht H8 H4 Hs) as (O1 & O2 & O3 & O4 & O5). unfold ps_wf. cbn [ps_hdr ps_payload]. rewrite Hp. auto 7.
  - rewrite ps_payload_short in Dc by assumption. discriminate.
  - rewrite ps_payload_full in Dc by assumption. inversion Dc; subst. destruct Ok as (O1 & O2 & O3 & O4 & O5). unfold ps_wf. cbn [ps_hdr ps_payload]. rewrite Hp. auto 7.
Qed.
Lemma ps_head m : exists t, ps_encode m = x03 :: t. Proof. eexists; reflexivity. Qed.
Lemma ps_nonempty m : ps_encode m <> []. Proof. discriminate. Qed.

Notation pdir := (dir ps_encode ps_ok ps_held ps_wf).
Notation pse := (endp ps_state ps_msg).
Notation pencs := (encs ps_encode).

Lemma pdir_poll (a b : pse) input r b' : pdir a b -> pipe_offers input (en_in b) = true -> ps_poll input b = (r, b') ->
  r <> PPanic /\ pdir a b' /\ en_items b' = en_items b ++ match r with PItem m => [m] | _ => [] end /\
  en_hs b' = en_hs b /\ en_greet b' = en_greet b /\ en_sent b' = en_sent b /\ en_on b' = en_on b.
Proof. apply (dir_poll ps_decode PSIo ps_encode ps_ok ps_held ps_conserving ps_wf ps_item_wf). Qed.
Lemma pdir_hs (a b : pse) used rest : pdir a b -> pipe_offers (used ++ rest) (en_in b) = true -> en_items b = [] -> en_fr b = framed_new PSHeader ->
  pdir a (end_hs (used ++ rest) rest b) /\ en_hs (end_hs (used ++ rest) rest b) = en_hs b ++ io_data used.
Proof. apply (dir_hs ps_encode PSHeader ps_ok ps_held I eq_refl ps_wf). Qed.

(** * Views *)
(** The fields of an end that the other side's steps cannot change. *)
Definition noin (a : pse) := (en_fr a, en_hs a, en_items a, en_greet a, en_sent a, en_on a).
Definition cview (k : plink) := noin (lk_c k).
Definition sview (k : plink) := noin (lk_s k).
Lemma noin_inv a b : noin a = noin b -> en_fr a = en_fr b /\ en_hs a = en_hs b /\ en_items a = en_items b /\ en_greet a = en_greet b /\ en_sent a = en_sent b /\ en_on a = en_on b.
Proof. unfold noin. intros H. inversion H. auto 6. Qed.
Definition same_view {V} (f : plink -> V) (ls ls' : list (N * plink)) : Prop :=
  mkeys ls' = mkeys ls /\ forall l, option_map f (mget l ls') = option_map f (mget l ls).
Lemma same_view_refl {V} (f : plink -> V) ls : same_view f ls ls. Proof. split; auto. Qed.
Lemma same_view_trans {V} (f : plink -> V) a b c : same_view f a b -> same_view f b c -> same_view f a c.
Proof. intros [K1 V1] [K2 V2]. split; [congruence|]. intros l. rewrite V2. apply V1. Qed.
Lemma same_view_set {V} (f : plink -> V) ls l k k' : mget l ls = Some k -> f k' = f k -> same_view f ls (mset l k' ls).
Proof.
  intros G E. split.
  - rewrite mkeys_set. unfold mem. rewrite G. reflexivity.
  - intros x. rewrite mget_set. destruct (eq_dec x l) as [->|]; [rewrite G; cbn; congruence|reflexivity].
Qed.
Lemma view_get {V} (f : plink -> V) ls ls' l k' : same_view f ls ls' -> mget l ls' = Some k' -> exists k, mget l ls = Some k /\ f k' = f k.
Proof. intros [_ H] G. specialize (H l). rewrite G in H. cbn in H. destruct (mget l ls) as [k|]; [|discriminate]. exists k. cbn in H. split; congruence. Qed.
Lemma view_get' {V} (f : plink -> V) ls ls' l k : same_view f ls ls' -> mget l ls = Some k -> exists k', mget l ls' = Some k' /\ f k' = f k.
Proof. intros [_ H] G. specialize (H l). rewrite G in H. cbn in H. destruct (mget l ls') as [k'|]; [|discriminate]. exists k'. cbn in H. split; congruence. Qed.
Lemma view_len {V} (f : plink -> V) ls ls' : same_view f ls ls' -> length ls' = length ls.
Proof. intros [H _]. unfold mkeys in H. rewrite <- (map_length fst ls'), H, map_length. reflexivity. Qed.

(** Links are numbered 0, 1, ... *)
Definition numbered (ls : list (N * plink)) : Prop := mkeys ls = map N.of_nat (seq 0 (length ls)).
Lemma numbered_nodup ls : numbered ls -> NoDup (mkeys ls).
Proof. intros ->. apply FinFun.Injective_map_NoDup; [intros a b; lia|apply seq_NoDup]. Qed.
Lemma numbered_lt ls l k : numbered ls -> mget l ls = Some k -> l < N.of_nat (length ls).
Proof. intros Nm G. assert (H : In l (mkeys ls)) by (apply mget_keys; congruence). rewrite Nm in H. apply in_map_iff in H. destruct H as (n & <- & H). apply in_seq in H. lia. Qed.
Lemma numbered_new ls k : numbered ls -> numbered (mset (N.of_nat (length ls)) k ls) /\ mget (N.of_nat (length ls)) ls = None /\ mset (N.of_nat (length ls)) k ls = ls ++ [(N.of_nat (length ls), k)].
Proof.
  intros Nm. assert (G : mget (N.of_nat (length ls)) ls = None).
  { destruct (mget (N.of_nat (length ls)) ls) eqn:E; [|reflexivity]. apply numbered_lt in E; [lia|exact Nm]. }
  assert (A : mset (N.of_nat (length ls)) k ls = ls ++ [(N.of_nat (length ls), k)]).
  { clear Nm. revert G. generalize (N.of_nat (length ls)) as n. intros n. induction ls as [|[x v] ls IH]; cbn [mset mget app]; [reflexivity|]. destruct (eq_dec n x); [discriminate|]. intros G. rewrite IH by exact G. reflexivity. }
  split; [|split; [exact G|exact A]]. rewrite A. unfold numbered, mkeys in *. rewrite map_app, app_length, seq_app, map_app, Nm. reflexivity.
Qed.
Lemma numbered_view {V} (f : plink -> V) ls ls' : numbered ls -> same_view f ls ls' -> numbered ls'.
Proof. intros Nm S. pose proof (view_len _ _ _ S) as L. destruct S as [K _]. unfold numbered in *. rewrite K, L. exact Nm. Qed.

