(** C96: the driver's passes over the publishers, as written. *)
From Coq Require Import List NArith Permutation.
From Verif Require Import Model.Base Model.Map Model.Stats Model.Framed Model.WirePubSub Model.WireAuth Model.Compression Model.Handshake Model.Utf8 Model.Backoff Model.JoinMap Model.PubDriver Model.SubDriver Model.SubPass
  Spec.ReqSpec Spec.SubSpec Spec.PassSpec.
Import ListNotations.
Open Scope N_scope.
(*HEADEND*)
From Coq Require Import ZArith ZifyBool ZifyNat ZifyN.
From Verif Require Import Proofs.BaseP Proofs.MapP Proofs.SubDriverP Proofs.SubDriverP3 Proofs.SubDriverP7 Proofs.SubDriverP8.
Local Open Scope N_scope.

(** ** Logs that tell the same story *)
Lemma story_refl l : same_story l l.
Proof. unfold same_story. repeat split; auto. Qed.
Lemma story_trans a b c : same_story a b -> same_story b c -> same_story a c.
Proof.
  intros (A1 & A2 & A3 & A4 & A5) (B1 & B2 & B3 & B4 & B5). split; [eapply Permutation_trans; eauto|].
  split; [intros k; rewrite A2; apply B2|]. split; [intros k; rewrite A3; apply B3|]. split; congruence.
Qed.
Lemma story_app a b c d : same_story a b -> same_story c d -> same_story (a ++ c) (b ++ d).
Proof.
  intros (A1 & A2 & A3 & A4 & A5) (B1 & B2 & B3 & B4 & B5). split; [now apply Permutation_app|].
  split; [intros k; unfold on in *; rewrite !filter_app, A2, B2; reflexivity|]. split; [intros k; rewrite !filter_app, A3, B3; reflexivity|].
  split; [unfold commands in *; rewrite !flat_map_app, A4, B4; reflexivity|]. rewrite !filter_app, A5, B5. reflexivity.
Qed.
Lemma filter_none {A} (f : A -> bool) l : (forall x, In x l -> f x = false) -> filter f l = [].
Proof. induction l as [|x l IH]; cbn [filter]; intros H; [reflexivity|]. rewrite (H x) by now left. apply IH. intros y Hy. apply H. now right. Qed.
Lemma filter_swap {A} (f : A -> bool) x o : (forall y z, In y x -> In z o -> f y = true -> f z = false) -> filter f (x ++ o) = filter f (o ++ x).
Proof.
  intros H. rewrite !filter_app. destruct (existsb f x) eqn:E.
  - apply existsb_exists in E. destruct E as (y & Hy & Fy). rewrite (filter_none f o), app_nil_r; [reflexivity|]. intros z Hz. exact (H y z Hy Hz Fy).
  - rewrite (filter_none f x), app_nil_r; [reflexivity|]. intros y Hy. destruct (f y) eqn:F; [|reflexivity]. assert (existsb f x = true) by (apply existsb_exists; eauto). congruence.
Qed.
Lemma story_swap x o :
  (forall y z k, In y x -> In z o -> about k y = true -> about k z = false) ->
  (forall y z a, In y x -> In z o -> concerns a y = true -> concerns a z = false) ->
  (forall y, In y x -> match y with UCmd _ | UDeliver _ _ _ _ _ => False | _ => True end) ->
  same_story (x ++ o) (o ++ x).
Proof.
  intros A B C. split; [apply Permutation_app_comm|]. split; [intros k; apply filter_swap; eauto|]. split; [intros a; apply filter_swap; eauto|].
  assert (Z : commands x = []). { clear A B. induction x as [|y x IH]; [reflexivity|]. pose proof (C y (or_introl eq_refl)) as Q. unfold commands in *. cbn [flat_map]. rewrite IH by (intros; apply C; now right). destruct y; try reflexivity; destruct Q. }
  split; [unfold commands in *; rewrite !flat_map_app, Z, app_nil_r; reflexivity|]. apply filter_swap. intros y z Hy _ F. specialize (C y Hy). destruct y; try discriminate; destruct C.
Qed.

(** ** Maps *)
Section Maps.
Context {K V : Type} {E : EqDec K}.
Lemma mset_comm (a b : K) (v w : V) m : a <> b -> mget a m <> None -> mset a v (mset b w m) = mset b w (mset a v m).
Proof.
  intros N. induction m as [|[k u] m IH]; cbn [mget mset]; [congruence|]. destruct (eq_dec a k) as [<-|Na].
  - intros _. destruct (eq_dec b a) as [->|_]; [congruence|]. cbn [mset]. destruct (eq_dec a a); [|congruence]. destruct (eq_dec b a); [congruence|reflexivity].
  - intros G. destruct (eq_dec b k) as [<-|Nb]; cbn [mset].
    + destruct (eq_dec a b); [congruence|]. destruct (eq_dec b b); [reflexivity|congruence].
    + destruct (eq_dec a k); [congruence|]. destruct (eq_dec b k); [congruence|]. f_equal. now apply IH.
Qed.
Lemma mdel_mset (a : K) (v : V) m : mdel a (mset a v m) = mdel a m.
Proof. induction m as [|[k u] m IH]; cbn [mset mdel]; [destruct (eq_dec a a); [reflexivity|congruence]|]. destruct (eq_dec a k) as [<-|]; cbn [mdel]; [destruct (eq_dec a a); [reflexivity|congruence]|]. destruct (eq_dec a k); [congruence|]. now f_equal. Qed.
Lemma mdel_mset_comm (a b : K) (w : V) m : a <> b -> mdel a (mset b w m) = mset b w (mdel a m).
Proof.
  intros N. induction m as [|[k u] m IH]; cbn [mset mdel]; [destruct (eq_dec a b); [congruence|reflexivity]|]. destruct (eq_dec b k) as [<-|Nb]; cbn [mdel].
  - destruct (eq_dec a b); [congruence|]. cbn [mset]. destruct (eq_dec b b); [reflexivity|congruence].
  - destruct (eq_dec a k); [exact IH|]. cbn [mset]. destruct (eq_dec b k); [congruence|]. now f_equal.
Qed.
End Maps.

Section P.
Variables (token : option bytes) (ingress initial : N) (D : decompressors).
Notation run := (sb_run token ingress initial D).

(** ** Deferring an action on one publisher past the others *)
Section Tr.
Variables (fp : list (addr * pstate) -> list (addr * pstate)) (fc : list (N * sconn) -> list (N * sconn)) (ft : joinmap addr -> joinmap addr).
Variables (l : list addr) (Oc : N -> Prop) (Ip : list (addr * pstate) -> Prop) (Ic : list (N * sconn) -> Prop).
Hypothesis Hp1 : forall b m, In b l -> mget b (fp m) = mget b m.
Hypothesis Hp2 : forall b v m, In b l -> Ip m -> fp (mset b v m) = mset b v (fp m) /\ Ip (mset b v m).
Hypothesis Hc1 : forall k m, Oc k -> mget k (fc m) = mget k m.
Hypothesis Hc2 : forall k v m, Oc k -> Ic m -> fc (mset k v m) = mset k v (fc m) /\ Ic (mset k v m).
Hypothesis Ht : forall b j, In b l -> jm_contains b (ft j) = jm_contains b j.

Definition tr (s : sb) : sb := mkSb (sb_cmdq s) (sb_out s) (sb_dropped s) (ft (sb_tasks s)) (sb_topics s) (fp (sb_pubs s)) (sb_stats s) (fc (sb_conns s)) (sb_next s).
Definition good (s : sb) : Prop := Ip (sb_pubs s) /\ Ic (sb_conns s) /\ forall b k, In b l -> mget b (sb_pubs s) = Some (PActive k) -> Oc k.
Definition okz (z : uout) : Prop := (forall k, about k z = true -> Oc k) /\ forall b, concerns b z = true -> In b l.

Lemma good_conns s k y : good s -> Oc k -> good (sb_set_conns s (mset k y (sb_conns s))).
Proof. intros (A & B & C) O. split; [exact A|]. split; [|exact C]. apply Hc2; auto. Qed.
Lemma good_pubs s b v : good s -> In b l -> (forall k, v <> PActive k) -> good (sb_set_pubs s (mset b v (sb_pubs s))).
Proof.
  intros (A & B & C) O Nv. split; [apply Hp2; auto|]. split; [exact B|]. cbn [sb_set_pubs sb_pubs]. intros d k Hd. rewrite mget_set. destruct (eq_dec d b); [intros [= E]; destruct (Nv k E)|]. now apply C.
Qed.
Lemma about_eq k c z : about k z = true -> about c z = true -> k = c.
Proof. destruct z; cbn [about]; try discriminate; repeat match goal with |- context [eq_dec ?x ?y] => destruct (eq_dec x y) end; congruence. Qed.

Lemma look_tr b now s s' o p n : In b l -> good s -> sp_look ingress D b now s = (s', o, p, n) ->
  sp_look ingress D b now (tr s) = (tr s', o, p, n) /\ good s' /\ Forall okz o /\ incl (to_retry n) [b] /\ incl (inactive n) [b] /\ incl (to_terminate n) [b] /\ sb_tasks s' = sb_tasks s.
Proof.
  intros Hb G. pose proof G as (G1 & G2 & G3). unfold sp_look. cbn [tr sb_pubs sb_conns sb_tasks]. rewrite Hp1 by exact Hb.
  destruct (mget b (sb_pubs s)) as [[c|bo]|] eqn:Gb.
  - pose proof (G3 _ _ Hb Gb) as Oc0. rewrite Hc1 by exact Oc0. destruct (mget c (sb_conns s)) as [x|].
    2:{ intros [= <- <- <- <-]. repeat split; try apply incl_nil_l; auto; apply G. }
    destruct (sc_in x) as [|m rest].
    + destruct (sc_alive x); intros [= <- <- <- <-]; (repeat split; try apply incl_nil_l; try apply incl_refl; auto; apply G).
    + destruct (Hc2 c (sc_set_in x rest) (sb_conns s) Oc0 G2) as (E1 & E2).
      assert (Gs : good (sb_set_conns s (mset c (sc_set_in x rest) (sb_conns s)))) by now apply good_conns.
      assert (Es : sb_set_conns (tr s) (mset c (sc_set_in x rest) (fc (sb_conns s))) = tr (sb_set_conns s (mset c (sc_set_in x rest) (sb_conns s)))).
      { unfold tr, sb_set_conns. cbn [sb_cmdq sb_out sb_dropped sb_tasks sb_topics sb_pubs sb_stats sb_conns sb_next]. rewrite E1. reflexivity. }
      cbv zeta. rewrite Es. destruct (try_decompress _ _ _) as [pl|].
      * unfold sb_pass. cbn [tr sb_set_conns sb_dropped sb_out]. destruct (sb_dropped s); [|destruct (_ <? _)]; intros [= <- <- <- <-];
          (split; [reflexivity|]; split; [exact Gs|]; split; [|repeat split; apply incl_nil_l]; constructor; [|constructor]; split; [intros k Hk|intros d Hd]; cbn [about concerns] in *; destruct (eq_dec _ _); congruence).
      * intros [= <- <- <- <-]. split; [reflexivity|]. split; [exact Gs|]. split; [|repeat split; apply incl_nil_l]. constructor; [|constructor]. split; [intros k Hk|intros d Hd]; cbn [about concerns] in *; [destruct (eq_dec _ _); congruence|discriminate].
  - destruct (bo_poll now bo) as [b' r].
    assert (Gs : good (sb_set_pubs s (mset b (PInactive b') (sb_pubs s)))) by (apply good_pubs; auto; discriminate).
    assert (Es : sb_set_pubs (tr s) (mset b (PInactive b') (fp (sb_pubs s))) = tr (sb_set_pubs s (mset b (PInactive b') (sb_pubs s)))).
    { unfold tr, sb_set_pubs. cbn [sb_cmdq sb_out sb_dropped sb_tasks sb_topics sb_pubs sb_stats sb_conns sb_next]. rewrite (proj1 (Hp2 b (PInactive b') (sb_pubs s) Hb G1)). reflexivity. }
    destruct r; rewrite ?Es, ?(Ht b _ Hb).
    + intros [= <- <- <- <-]. split; [reflexivity|]. split; [exact Gs|]. split; [constructor|]. destruct (jm_contains b (sb_tasks s)); cbn [to_retry inactive to_terminate]; repeat split; try apply incl_nil_l; apply incl_refl.
    + intros [= <- <- <- <-]. split; [reflexivity|]. split; [exact Gs|]. split; [constructor|]. cbn [to_retry inactive to_terminate]; repeat split; try apply incl_nil_l; apply incl_refl.
    + intros [= <- <- <- <-]. split; [reflexivity|]. split; [exact Gs|]. split; [constructor|]. cbn [to_retry inactive to_terminate]; repeat split; apply incl_nil_l.
    + intros [= <- <- <- <-]. split; [reflexivity|]. split; [exact G|]. split; [constructor|]. cbn [to_retry inactive to_terminate]; repeat split; apply incl_nil_l.
  - intros [= <- <- <- <-]. repeat split; try apply incl_nil_l; auto; apply G.
Qed.

Lemma looks_tr now : forall l0 s s' o p n, incl l0 l -> good s -> sp_looks ingress D l0 now s = (s', o, p, n) ->
  sp_looks ingress D l0 now (tr s) = (tr s', o, p, n) /\ good s' /\ Forall okz o /\ incl (to_retry n) l0 /\ incl (inactive n) l0 /\ incl (to_terminate n) l0 /\ sb_tasks s' = sb_tasks s.
Proof.
  induction l0 as [|b l0 IH]; intros s s' o p n Hl G; cbn [sp_looks].
  - intros [= <- <- <- <-]. split; [reflexivity|]. split; [exact G|]. split; [constructor|]. repeat split; apply incl_nil_l.
  - destruct (sp_look ingress D b now s) as [[[s1 o1] p1] n1] eqn:L. destruct (look_tr _ _ _ _ _ _ _ (Hl b (or_introl eq_refl)) G L) as (L1 & L2 & L3 & L4 & L5 & L6 & L7).
    destruct (sp_looks ingress D l0 now s1) as [[[s2 o2] p2] n2] eqn:Q. destruct (IH _ _ _ _ _ (fun x H => Hl x (or_intror H)) L2 Q) as (Q1 & Q2 & Q3 & Q4 & Q5 & Q6 & Q7).
    intros [= <- <- <- <-]. rewrite L1, Q1. split; [reflexivity|]. split; [exact Q2|]. split; [apply Forall_app; auto|]. cbn [to_retry inactive to_terminate].
    assert (I : forall x y : list addr, incl x [b] -> incl y l0 -> incl (x ++ y) (b :: l0)).
    { intros x y A B z Hz. apply in_app_or in Hz. destruct Hz as [Hz|Hz]; [destruct (A _ Hz) as [->|[]]; now left|right; auto]. }
    split; [auto|]. split; [auto|]. split; [auto|]. congruence.
Qed.

Lemma reset_tr b s s' o : In b l -> good s -> sb_reset initial b s = (s', o) -> sb_reset initial b (tr s) = (tr s', o) /\ good s' /\ Forall okz o.
Proof.
  intros Hb G. pose proof G as (G1 & G2 & G3). unfold sb_reset. cbn [tr sb_pubs]. rewrite Hp1 by exact Hb. set (bo := PInactive (bo_new initial MAX_RETRIES)).
  assert (Go : forall s1, good s1 -> good (sb_set_pubs s1 (mset b bo (sb_pubs s1)))) by (intros s1 G'; apply good_pubs; auto; discriminate).
  assert (Es : forall s1, good s1 -> sb_set_pubs (tr s1) (mset b bo (fp (sb_pubs s1))) = tr (sb_set_pubs s1 (mset b bo (sb_pubs s1)))).
  { intros s1 (A & _). unfold tr, sb_set_pubs. cbn [sb_cmdq sb_out sb_dropped sb_tasks sb_topics sb_pubs sb_stats sb_conns sb_next]. rewrite (proj1 (Hp2 b bo (sb_pubs s1) Hb A)). reflexivity. }
  assert (Zr : okz (UReset b)) by (split; [discriminate|]; intros d; cbn [concerns]; destruct (eq_dec b d) as [->|]; [auto|discriminate]).
  unfold sb_release. destruct (mget b (sb_pubs s)) as [[c|b0]|] eqn:Gb.
  - pose proof (G3 _ _ Hb Gb) as O. cbn [tr sb_conns]. rewrite Hc1 by exact O. destruct (mget c (sb_conns s)) as [x|].
    + intros [= <- <-]. assert (Gs : good (sb_set_conns s (mset c (sc_release x) (sb_conns s)))) by now apply good_conns.
      assert (Ec : sb_set_conns (tr s) (mset c (sc_release x) (fc (sb_conns s))) = tr (sb_set_conns s (mset c (sc_release x) (sb_conns s)))).
      { unfold tr, sb_set_conns. cbn [sb_cmdq sb_out sb_dropped sb_tasks sb_topics sb_pubs sb_stats sb_conns sb_next]. rewrite (proj1 (Hc2 c (sc_release x) (sb_conns s) O G2)). reflexivity. }
      rewrite Ec. cbn [tr sb_set_conns sb_pubs]. change (fp (sb_pubs s)) with (fp (sb_pubs (sb_set_conns s (mset c (sc_release x) (sb_conns s))))). rewrite (Es _ Gs).
      split; [reflexivity|]. split; [apply (Go _ Gs)|]. constructor; [|constructor; [exact Zr|constructor]]. split; [intros k; cbn [about]; destruct (eq_dec c k) as [->|]; [auto|discriminate]|discriminate].
    + intros [= <- <-]. cbn [tr sb_pubs]. rewrite (Es _ G). split; [reflexivity|]. split; [apply (Go _ G)|]. repeat constructor; apply Zr.
  - intros [= <- <-]. cbn [tr sb_pubs]. rewrite (Es _ G). split; [reflexivity|]. split; [apply (Go _ G)|]. repeat constructor; apply Zr.
  - intros [= <- <-]. cbn [tr sb_pubs]. rewrite (Es _ G). split; [reflexivity|]. split; [apply (Go _ G)|]. repeat constructor; apply Zr.
Qed.
Lemma resets_tr : forall l0 s s' o, incl l0 l -> good s -> sp_resets initial l0 s = (s', o) -> sp_resets initial l0 (tr s) = (tr s', o) /\ good s' /\ Forall okz o.
Proof.
  induction l0 as [|b l0 IH]; intros s s' o Hl G; cbn [sp_resets]; [intros [= <- <-]; split; [reflexivity|]; split; [exact G|constructor]|].
  destruct (sb_reset initial b s) as [s1 o1] eqn:R. destruct (reset_tr _ _ _ _ (Hl b (or_introl eq_refl)) G R) as (R1 & R2 & R3).
  destruct (sp_resets initial l0 s1) as [s2 o2] eqn:Q. destruct (IH _ _ _ (fun x H => Hl x (or_intror H)) R2 Q) as (Q1 & Q2 & Q3). intros [= <- <-]. rewrite R1, Q1. split; [reflexivity|]. split; [exact Q2|]. apply Forall_app; auto.
Qed.
Hypothesis Hft : forall j, ft j = j.
Lemma connects_tr : forall l0 s s' o, incl l0 l -> good s -> sp_connects l0 s = (s', o) -> sp_connects l0 (tr s) = (tr s', o) /\ good s' /\ Forall okz o.
Proof.
  induction l0 as [|b l0 IH]; intros s s' o Hl G; cbn [sp_connects]; [intros [= <- <-]; split; [reflexivity|]; split; [exact G|constructor]|].
  unfold sb_connect. cbn [tr sb_tasks]. rewrite Hft. destruct (jm_spawn b (sb_tasks s)) as [j st] eqn:J.
  assert (G1 : good (sb_set_tasks s j)) by exact G. destruct (sp_connects l0 (sb_set_tasks s j)) as [s2 o2] eqn:Q. destruct (IH _ _ _ (fun x H => Hl x (or_intror H)) G1 Q) as (Q1 & Q2 & Q3). intros [= <- <-].
  replace (sb_set_tasks (tr s) j) with (tr (sb_set_tasks s j)) by (unfold tr, sb_set_tasks; cbn [sb_cmdq sb_out sb_dropped sb_tasks sb_topics sb_pubs sb_stats sb_conns sb_next]; rewrite Hft; reflexivity).
  rewrite Q1. split; [reflexivity|]. split; [exact Q2|]. apply Forall_app. split; [|exact Q3]. destruct st; constructor; [|constructor]. split; [discriminate|]. intros d. cbn [concerns]. destruct (eq_dec b d) as [->|]; [intros _; apply Hl; now left|discriminate].
Qed.
End Tr.

Lemma story_move x a b c : same_story (x ++ a) (a ++ x) -> same_story (x ++ a ++ b ++ c) (a ++ (x ++ b) ++ c).
Proof using. intros H. replace (x ++ a ++ b ++ c) with ((x ++ a) ++ b ++ c) by now rewrite <- app_assoc. replace (a ++ (x ++ b) ++ c) with ((a ++ x) ++ b ++ c) by now rewrite <- !app_assoc. apply story_app; [exact H|apply story_refl]. Qed.

Notation pass := (sp_pass ingress initial D).
Lemma pass_entries now : forall l s s' o p, SI s -> NoDup l -> sb_entries ingress initial D l now s = (s', o, p) -> exists o', pass l now s = (s', o', p) /\ same_story o o'.
Proof.
  induction l as [|a l IH]; intros s s' o p I Nd; cbn [sb_entries].
  { intros [= <- <- <-]. exists []. split; [reflexivity|apply story_refl]. }
  inversion Nd as [|? ? Na Nd']; subst.
  destruct (sb_entry ingress initial D a now s) as [[s1 o1] p1] eqn:En. destruct (entry_step ingress initial D _ _ _ _ _ _ I En) as (I1 & _).
  destruct (sb_entries ingress initial D l now s1) as [[s2 o2] p2] eqn:Q. intros [= <- <- <-]. destruct (IH _ _ _ _ I1 Nd' Q) as (o2' & P2 & St2).
  assert (St : same_story (o1 ++ o2) (o1 ++ o2')) by (apply story_app; [apply story_refl|exact St2]).
  (* nothing is deferred *)
  assert (Plain : sp_look ingress D a now s = (s1, o1, p1, mkNoted [] [] []) -> exists o', pass (a :: l) now s = (s2, o', p1 || p2) /\ same_story (o1 ++ o2) o').
  { intros L. exists (o1 ++ o2'). split; [|exact St]. revert P2. unfold sp_pass. cbn [sp_looks]. rewrite L. destruct (sp_looks ingress D l now s1) as [[[t lo] p3] n]. cbn [to_retry inactive to_terminate app].
    destruct (sp_connects (to_retry n) t) as [t2 co]. destruct (sp_resets initial (inactive n) t2) as [t3 ro]. destruct (sp_removes (to_terminate n) t3) as [t4 eo]. intros [= <- <- <-]. now rewrite <- app_assoc. }
  unfold sb_entry in En. destruct (mget a (sb_pubs s)) as [[c|bo]|] eqn:Ga.
  - destruct (si_act _ I _ _ Ga) as (x & Gx & Ax & Hx). rewrite Gx in En. destruct (sc_in x) as [|m rest] eqn:Ei.
    + destruct (sc_alive x) eqn:Al; [injection En as <- <- <-; apply Plain; unfold sp_look; rewrite Ga, Gx, Ei, Al; reflexivity|].
      (* reset *)
      destruct (sb_reset initial a s) as [u uo] eqn:R. injection En as <- <- <-.
      set (fp := mset (V:=pstate) a (PInactive (bo_new initial MAX_RETRIES))). set (fc := mset c (sc_release x)).
      assert (Rt : forall t, mget a (sb_pubs t) = Some (PActive c) -> mget c (sb_conns t) = Some x -> sb_reset initial a t = (tr fp fc (fun j => j) t, [UClosed c []; UReset a])).
      { intros t G1 G2. unfold sb_reset, sb_release. rewrite G1, G2, Ei. reflexivity. }
      rewrite (Rt s Ga Gx) in R. injection R as <- <-.
      set (Oc := fun k => k <> c). set (Ip := fun m : list (addr * pstate) => mget a m = Some (PActive c)). set (Ic := fun m : list (N * sconn) => mget c m = Some x).
      assert (H1 : forall b m, In b l -> mget b (fp m) = mget b m) by (intros b m Hb; apply mget_set_ne; congruence).
      assert (H2 : forall b v m, In b l -> Ip m -> fp (mset b v m) = mset b v (fp m) /\ Ip (mset b v m)).
      { intros b v m Hb G. assert (a <> b) by congruence. split; [apply mset_comm; [assumption|unfold Ip in G; congruence]|]. unfold Ip in *. rewrite mget_set_ne by assumption. exact G. }
      assert (H3 : forall k m, Oc k -> mget k (fc m) = mget k m) by (intros k m Hk; apply mget_set_ne; exact Hk).
      assert (H4 : forall k v m, Oc k -> Ic m -> fc (mset k v m) = mset k v (fc m) /\ Ic (mset k v m)).
      { intros k v m Hk G. unfold Oc in Hk. split; [apply mset_comm; [congruence|unfold Ic in G; congruence]|]. unfold Ic in *. rewrite mget_set_ne by congruence. exact G. }
      assert (H5 : forall b j, In b l -> jm_contains b ((fun j : joinmap addr => j) j) = jm_contains b j) by reflexivity.
      assert (G : good l Oc Ip Ic s).
      { split; [exact Ga|]. split; [exact Gx|]. intros b k Hb Gb ->. destruct (si_act _ I _ _ Gb) as (x' & Gx' & Ax' & _). apply Na. assert (b = a) by congruence. congruence. }
      assert (L : sp_look ingress D a now s = (s, [], true, mkNoted [] [a] [])) by (unfold sp_look; rewrite Ga, Gx, Ei, Al; reflexivity).
      revert P2. unfold sp_pass. cbn [sp_looks]. rewrite L. destruct (sp_looks ingress D l now s) as [[[t lo] p3] n] eqn:Lk.
      destruct (looks_tr fp fc (fun j => j) l Oc Ip Ic H1 H2 H3 H4 H5 now _ _ _ _ _ _ (incl_refl l) G Lk) as (L1 & G1 & Z1 & N1 & N2 & N3 & _). rewrite L1.
      destruct (sp_connects (to_retry n) t) as [t2 co] eqn:Co. destruct (connects_tr fp fc (fun j => j) l Oc Ip Ic ltac:(reflexivity) _ _ _ _ N1 G1 Co) as (C1 & G2 & Z2). rewrite C1.
      cbn [to_retry inactive to_terminate app]. rewrite Co. cbn [sp_resets]. rewrite (Rt t2 (proj1 G2) (proj1 (proj2 G2))).
      destruct (sp_resets initial (inactive n) _) as [t3 ro]. destruct (sp_removes (to_terminate n) t3) as [t4 eo]. intros [= <- <- <-]. eexists. split; [reflexivity|].
      eapply story_trans; [exact St|].
      replace (lo ++ co ++ ([UClosed c []; UReset a] ++ ro) ++ eo) with ((lo ++ co) ++ ([UClosed c []; UReset a] ++ ro) ++ eo) by now rewrite <- !app_assoc.
      replace ([UClosed c []; UReset a] ++ lo ++ co ++ ro ++ eo) with ([UClosed c []; UReset a] ++ (lo ++ co) ++ ro ++ eo) by now rewrite <- !app_assoc.
      apply story_move. assert (Z : Forall (okz l Oc) (lo ++ co)) by (apply Forall_app; auto). rewrite Forall_forall in Z. apply story_swap.
      * intros y z k Hy Hz Ay. destruct (about k z) eqn:Az; [|reflexivity]. exfalso. apply (proj1 (Z z Hz)) in Az. destruct Hy as [<-|[<-|[]]]; cbn [about] in Ay; [|discriminate]. destruct (eq_dec c k); [|discriminate]. apply Az. congruence.
      * intros y z b Hy Hz Ay. destruct (concerns b z) eqn:Az; [|reflexivity]. exfalso. apply (proj2 (Z z Hz)) in Az. destruct Hy as [<-|[<-|[]]]; cbn [concerns] in Ay; [discriminate|]. destruct (eq_dec a b); [|discriminate]. congruence.
      * intros y [<-|[<-|[]]]; exact Logic.I.
    + apply Plain. unfold sp_look. rewrite Ga, Gx, Ei. cbv zeta in En |- *. destruct (try_decompress _ _ _); [destruct (sb_pass _ _ _ _ _ _)|]; injection En as <- <- <-; reflexivity.
  - unfold sp_look in Plain. rewrite Ga in Plain. destruct (bo_poll now bo) as [b' r] eqn:B. destruct r as [d| | |].
    + cbv zeta in En. set (s0 := sb_set_pubs s (mset a (PInactive b') (sb_pubs s))) in *. destruct (jm_contains a (sb_tasks s)) eqn:J; [injection En as <- <- <-; apply Plain; reflexivity|].
      (* redial *)
      destruct (sb_connect a s0) as [u uo] eqn:R. injection En as <- <- <-.
      set (ft := fun j : joinmap addr => mkJm (sins a (jm_keys j)) (jm_tasks j ++ [a])).
      assert (Rt : forall t, sb_tasks t = sb_tasks s -> sb_connect a t = (tr (fun m => m) (fun m => m) ft t, [UConnect a])).
      { intros t E. unfold sb_connect, jm_spawn, jm_contains in *. rewrite E, J. unfold tr, ft. cbn beta. rewrite E. reflexivity. }
      rewrite (Rt s0 eq_refl) in R. injection R as <- <-.
      set (Oc := fun _ : N => True). set (Ip := fun _ : list (addr * pstate) => True). set (Ic := fun _ : list (N * sconn) => True).
      assert (G : good l Oc Ip Ic s0) by (repeat split).
      assert (H5 : forall b j, In b l -> jm_contains b (ft j) = jm_contains b j).
      { intros b j Hb. unfold jm_contains, ft. cbn [jm_keys]. apply Bool.eq_true_iff_eq. rewrite !smem_true. unfold sins. destruct (smem a (jm_keys j)); [tauto|]. rewrite in_app_iff. cbn. assert (a <> b) by congruence. tauto. }
      assert (L : sp_look ingress D a now s = (s0, [], true, mkNoted [a] [] [])) by (unfold sp_look; rewrite Ga, B, J; reflexivity).
      revert P2. unfold sp_pass. cbn [sp_looks]. rewrite L. destruct (sp_looks ingress D l now s0) as [[[t lo] p3] n] eqn:Lk.
      assert (H2 : forall b v m, In b l -> Ip m -> (fun m : list (addr * pstate) => m) (mset b v m) = mset b v ((fun m => m) m) /\ Ip (mset b v m)) by (repeat split).
      assert (H4 : forall k v m, Oc k -> Ic m -> (fun m : list (N * sconn) => m) (mset k v m) = mset k v ((fun m => m) m) /\ Ic (mset k v m)) by (repeat split).
      destruct (looks_tr (fun m => m) (fun m => m) ft l Oc Ip Ic ltac:(reflexivity) H2 ltac:(reflexivity) H4 H5 now _ _ _ _ _ _ (incl_refl l) G Lk) as (L1 & G1 & Z1 & N1 & N2 & N3 & Tk). rewrite L1.
      cbn [to_retry inactive to_terminate app sp_connects]. rewrite (Rt t Tk). destruct (sp_connects (to_retry n) _) as [t2 co].
      destruct (sp_resets initial (inactive n) _) as [t3 ro]. destruct (sp_removes (to_terminate n) t3) as [t4 eo]. intros [= <- <- <-]. eexists. split; [reflexivity|].
      eapply story_trans; [exact St|]. apply story_move. rewrite Forall_forall in Z1. apply story_swap.
      * intros y z k Hy Hz Ay. destruct Hy as [<-|[]]; discriminate.
      * intros y z b Hy Hz Ay. destruct (concerns b z) eqn:Az; [|reflexivity]. exfalso. apply (proj2 (Z1 z Hz)) in Az. destruct Hy as [<-|[]]; cbn [concerns] in Ay. destruct (eq_dec a b); [|discriminate]. congruence.
      * intros y [<-|[]]; exact Logic.I.
    + (* given up *)
      injection En as <- <- <-. set (s0 := sb_set_pubs s (mset a (PInactive b') (sb_pubs s))).
      set (fp := mdel (V:=pstate) a).
      assert (Rt : forall t, sb_set_pubs t (mdel a (sb_pubs t)) = tr fp (fun m => m) (fun j => j) t) by reflexivity.
      assert (E0 : sb_set_pubs s (mdel a (sb_pubs s)) = tr fp (fun m => m) (fun j => j) s0) by (rewrite <- Rt; subst s0; unfold sb_set_pubs; cbn [sb_cmdq sb_out sb_dropped sb_tasks sb_topics sb_pubs sb_stats sb_conns sb_next]; rewrite mdel_mset; reflexivity).
      rewrite E0 in P2, I1.
      set (Oc := fun _ : N => True). set (Ip := fun _ : list (addr * pstate) => True). set (Ic := fun _ : list (N * sconn) => True).
      assert (G : good l Oc Ip Ic s0) by (repeat split).
      assert (H1 : forall b m, In b l -> mget b (fp m) = mget b m) by (intros b m Hb; apply mget_del_ne; congruence).
      assert (H2 : forall b v m, In b l -> Ip m -> fp (mset b v m) = mset b v (fp m) /\ Ip (mset b v m)) by (intros b v m Hb _; split; [apply mdel_mset_comm; congruence|exact Logic.I]).
      assert (H4 : forall k v m, Oc k -> Ic m -> (fun m : list (N * sconn) => m) (mset k v m) = mset k v ((fun m => m) m) /\ Ic (mset k v m)) by (repeat split).
      assert (L : sp_look ingress D a now s = (s0, [], false, mkNoted [] [] [a])) by (unfold sp_look; rewrite Ga, B; reflexivity).
      revert P2. unfold sp_pass. cbn [sp_looks]. rewrite L. destruct (sp_looks ingress D l now s0) as [[[t lo] p3] n] eqn:Lk.
      destruct (looks_tr fp (fun m => m) (fun j => j) l Oc Ip Ic H1 H2 ltac:(reflexivity) H4 ltac:(reflexivity) now _ _ _ _ _ _ (incl_refl l) G Lk) as (L1 & G1 & Z1 & N1 & N2 & N3 & _). rewrite L1.
      destruct (sp_connects (to_retry n) t) as [t2 co] eqn:Co. destruct (connects_tr fp (fun m => m) (fun j => j) l Oc Ip Ic ltac:(reflexivity) _ _ _ _ N1 G1 Co) as (C1 & G2 & Z2). rewrite C1.
      cbn [to_retry inactive to_terminate app]. rewrite Co.
      destruct (sp_resets initial (inactive n) t2) as [t3 ro] eqn:Rs. destruct (resets_tr fp (fun m => m) (fun j => j) l Oc Ip Ic H1 H2 ltac:(reflexivity) H4 _ _ _ _ N2 G2 Rs) as (R1 & G3 & Z3). rewrite R1.
      cbn [sp_removes]. rewrite Rt. destruct (sp_removes (to_terminate n) _) as [t4 eo]. intros [= <- <- <-]. eexists. split; [reflexivity|].
      eapply story_trans; [exact St|].
      replace (lo ++ co ++ ro ++ UGaveUp a :: eo) with ((lo ++ co ++ ro) ++ [UGaveUp a] ++ eo) by now rewrite <- !app_assoc.
      replace ([UGaveUp a] ++ lo ++ co ++ ro ++ eo) with (([UGaveUp a] ++ lo ++ co ++ ro) ++ eo) by now rewrite <- !app_assoc.
      rewrite (app_assoc _ [UGaveUp a] eo). apply story_app; [|apply story_refl]. assert (Z : Forall (okz l Oc) (lo ++ co ++ ro)) by (rewrite !Forall_app; auto). rewrite Forall_forall in Z. apply story_swap.
      * intros y z k Hy Hz Ay. destruct Hy as [<-|[]]; discriminate.
      * intros y z b Hy Hz Ay. destruct (concerns b z) eqn:Az; [|reflexivity]. exfalso. apply (proj2 (Z z Hz)) in Az. destruct Hy as [<-|[]]; cbn [concerns] in Ay. destruct (eq_dec a b); [|discriminate]. congruence.
      * intros y [<-|[]]; exact Logic.I.
    + injection En as <- <- <-. apply Plain. reflexivity.
    + injection En as <- <- <-. apply Plain. reflexivity.
  - injection En as <- <- <-. apply Plain. unfold sp_look. rewrite Ga. reflexivity.
Qed.

(** ** Telling a command to all publishers *)
Section Tell.
Variables (fp : list (addr * pstate) -> list (addr * pstate)) (fc : list (N * sconn) -> list (N * sconn)).
Variables (l : list addr) (Oc : N -> Prop) (Ip : list (addr * pstate) -> Prop) (Ic : list (N * sconn) -> Prop).
Hypothesis Hc1 : forall k m, Oc k -> mget k (fc m) = mget k m.
Hypothesis Hc2 : forall k v m, Oc k -> Ic m -> fc (mset k v m) = mset k v (fc m) /\ Ic (mset k v m).
Notation trx := (tr fp fc (fun j => j)).
Lemma tries_tr c : forall l0 s s' o n, (forall b k, In (b, PActive k) l0 -> Oc k) -> incl (mkeys l0) l -> good l Oc Ip Ic s -> sp_tries c l0 s = (s', o, n) ->
  sp_tries c l0 (trx s) = (trx s', o, n) /\ good l Oc Ip Ic s' /\ Forall (okz l Oc) o /\ incl n (mkeys l0).
Proof using Hc1 Hc2.
  induction l0 as [|[b [k|bo]] l0 IH]; intros s s' o n Ho Hl G; cbn [sp_tries].
  - intros [= <- <- <-]. split; [reflexivity|]. split; [exact G|]. split; [constructor|apply incl_nil_l].
  - assert (O : Oc k) by (eapply Ho; now left). change (sb_conns (trx s)) with (fc (sb_conns s)). rewrite Hc1 by exact O.
    assert (Ho' : forall b k, In (b, PActive k) l0 -> Oc k) by (intros; eapply Ho; right; eauto). assert (Hl' : incl (mkeys l0) l) by (intros z Hz; apply Hl; now right).
    destruct (mget k (sb_conns s)) as [x|].
    + destruct (sc_try c x) as [x' r]. set (s1 := sb_set_conns s (mset k x' (sb_conns s))).
      assert (G1 : good l Oc Ip Ic s1) by (destruct G as (A & B & C); split; [exact A|]; split; [apply Hc2; auto|exact C]).
      assert (E1 : sb_set_conns (trx s) (mset k x' (fc (sb_conns s))) = trx s1).
      { unfold tr, s1, sb_set_conns. cbn [sb_cmdq sb_out sb_dropped sb_tasks sb_topics sb_pubs sb_stats sb_conns sb_next]. rewrite (proj1 (Hc2 k x' (sb_conns s) O (proj1 (proj2 G)))). reflexivity. }
      rewrite E1. destruct (sp_tries c l0 s1) as [[s2 o2] n2] eqn:T. destruct (IH _ _ _ _ Ho' Hl' G1 T) as (T1 & T2 & T3 & T4). rewrite T1. intros [= <- <- <-].
      split; [reflexivity|]. split; [exact T2|]. split; [constructor; [|exact T3]; split; [intros k0; cbn [about]; destruct (eq_dec k k0) as [->|]; [auto|discriminate]|discriminate]|].
      destruct r; intros z Hz; try (right; apply T4; exact Hz). destruct Hz as [<-|Hz]; [now left|right; now apply T4].
    + intros T. destruct (IH _ _ _ _ Ho' Hl' G T) as (T1 & T2 & T3 & T4). split; [exact T1|]. split; [exact T2|]. split; [exact T3|]. intros z Hz. right. now apply T4.
  - intros T. assert (Ho' : forall b k, In (b, PActive k) l0 -> Oc k) by (intros; eapply Ho; right; eauto). assert (Hl' : incl (mkeys l0) l) by (intros z Hz; apply Hl; now right).
    destruct (IH _ _ _ _ Ho' Hl' G T) as (T1 & T2 & T3 & T4). split; [exact T1|]. split; [exact T2|]. split; [exact T3|]. intros z Hz. right. now apply T4.
Qed.
End Tell.

Lemma tell_same c : forall l s s' o, SI s -> NoDup (mkeys l) -> (forall a st, In (a, st) l -> mget a (sb_pubs s) = Some st) ->
  sb_tell initial c l s = (s', o) -> exists o', sp_tell initial c l s = (s', o') /\ same_story o o'.
Proof.
  induction l as [|[a st] l IH]; intros s s' o I Nd Hl; cbn [sb_tell].
  { intros [= <- <-]. exists []. split; [reflexivity|apply story_refl]. }
  inversion Nd as [|? ? Na Nd']; subst. fold (mkeys l) in *. pose proof (Hl a st (or_introl eq_refl)) as Ga.
  destruct st as [cid|b]; [|intros H; destruct (IH s s' o I Nd' (fun a st H => Hl a st (or_intror H)) H) as (o' & A & B); exists o'; split; [exact A|exact B]].
  destruct (si_act _ I _ _ Ga) as (x & Gx & Ax & Hx). rewrite Gx. destruct (sc_try c x) as [x' r] eqn:T.
  pose proof (try_addr D c x) as [Ka Kh]. rewrite T in Ka, Kh. cbn [fst] in Ka, Kh.
  set (s1 := sb_set_conns s (mset cid x' (sb_conns s))).
  assert (I1 : SI s1) by (eapply SI_conn; eauto).
  assert (Plain : forall s3 o3, r <> TClosed -> sb_tell initial c l s1 = (s3, o3) -> exists o', sp_tell initial c ((a, PActive cid) :: l) s = (s3, o') /\ same_story (UTry cid c r :: o3) o').
  { intros s3 o3 Nr E. destruct (IH s1 s3 o3 I1 Nd' (fun a st H => Hl a st (or_intror H)) E) as (o' & A & B). exists (UTry cid c r :: o'). split; [|apply (story_app [UTry cid c r] [UTry cid c r]); [apply story_refl|exact B]].
    revert A. unfold sp_tell. cbn [sp_tries]. rewrite Gx, T. fold s1. destruct (sp_tries c l s1) as [[t lo] n]. destruct r; try congruence; destruct (sp_resets initial n t) as [t2 ro]; intros [= <- <-]; reflexivity. }
  destruct r.
  1,2: destruct (sb_tell initial c l s1) as [s3 o3] eqn:E3; intros [= <- <-]; apply (Plain s3 o3); [discriminate|reflexivity].
  set (fp := mset (V:=pstate) a (PInactive (bo_new initial MAX_RETRIES))). set (fc := mset cid (sc_release x')).
  assert (Rt : forall t, mget a (sb_pubs t) = Some (PActive cid) -> mget cid (sb_conns t) = Some x' -> sb_reset initial a t = (tr fp fc (fun j => j) t, [UClosed cid (sc_in x'); UReset a])).
  { intros t G1 G2. unfold sb_reset, sb_release. rewrite G1, G2. reflexivity. }
  assert (Ga1 : mget a (sb_pubs s1) = Some (PActive cid)) by exact Ga. assert (Gx1 : mget cid (sb_conns s1) = Some x') by apply mget_set_eq.
  destruct (sb_reset initial a s1) as [s2 o2] eqn:E2. destruct (reset_step initial D a s1 s2 o2 I1 E2) as (I2 & _ & C2 & _).
  rewrite (Rt s1 Ga1 Gx1) in E2. injection E2 as <- <-. destruct (sb_tell initial c l (tr fp fc (fun j => j) s1)) as [s3 o3] eqn:E3. intros HH. assert (H1 : s3 = s') by congruence. assert (H2 : UTry cid c TClosed :: [UClosed cid (sc_in x'); UReset a] ++ o3 = o) by congruence. clear HH. subst s' o.
  assert (Hl2 : forall a0 st, In (a0, st) l -> mget a0 (sb_pubs (tr fp fc (fun j => j) s1)) = Some st).
  { intros a0 st Hi. rewrite C2. destruct (eq_dec a0 a) as [->|]; [exfalso; apply Na; apply (in_map fst) in Hi; exact Hi|]. apply Hl. now right. }
  destruct (IH _ _ _ I2 Nd' Hl2 E3) as (o' & A & B).
  set (Oc := fun k => k <> cid). set (Ip := fun m : list (addr * pstate) => mget a m = Some (PActive cid)). set (Ic := fun m : list (N * sconn) => mget cid m = Some x').
  assert (H3 : forall k m, Oc k -> mget k (fc m) = mget k m) by (intros k m Hk; apply mget_set_ne; exact Hk).
  assert (H4 : forall k v m, Oc k -> Ic m -> fc (mset k v m) = mset k v (fc m) /\ Ic (mset k v m)).
  { intros k v m Hk G. unfold Oc in Hk. split; [apply mset_comm; [congruence|unfold Ic in G; congruence]|]. unfold Ic in *. rewrite mget_set_ne by congruence. exact G. }
  assert (Own : forall b k, b <> a -> mget b (sb_pubs s1) = Some (PActive k) -> Oc k).
  { intros b k Nb Gb ->. destruct (si_act _ I1 _ _ Gb) as (y & Gy & Ay & _). apply Nb. congruence. }
  assert (G : good (mkeys l) Oc Ip Ic s1). { split; [exact Ga1|]. split; [exact Gx1|]. intros b k Hb. apply Own. congruence. }
  assert (Ho : forall b k, In (b, PActive k) l -> Oc k). { intros b k Hi. apply (Own b); [intros ->; apply Na; apply (in_map fst) in Hi; exact Hi|]. apply Hl. now right. }
  revert A. unfold sp_tell. cbn [sp_tries]. rewrite Gx, T. fold s1. destruct (sp_tries c l s1) as [[t lo] n] eqn:Tr.
  destruct (tries_tr fp fc (mkeys l) Oc Ip Ic H3 H4 c _ _ _ _ _ Ho (incl_refl _) G Tr) as (T1 & G1 & Z1 & N1). rewrite T1. cbn [sp_resets]. rewrite (Rt t (proj1 G1) (proj1 (proj2 G1))).
  destruct (sp_resets initial n _) as [t3 ro]. intros [= <- <-]. eexists. split; [reflexivity|]. cbn [app]. apply (story_app [_] [_]); [apply story_refl|].
  eapply story_trans; [apply (story_app [UClosed cid (sc_in x'); UReset a] [UClosed cid (sc_in x'); UReset a] _ _ (story_refl _) B)|].
  change (lo ++ UClosed cid (sc_in x') :: UReset a :: ro) with (lo ++ [UClosed cid (sc_in x'); UReset a] ++ ro). rewrite !app_assoc. apply story_app; [|apply story_refl]. rewrite Forall_forall in Z1. apply story_swap.
  - intros y z k Hy Hz Ay. destruct (about k z) eqn:Az; [|reflexivity]. exfalso. apply (proj1 (Z1 z Hz)) in Az. destruct Hy as [<-|[<-|[]]]; cbn [about] in Ay; [|discriminate]. destruct (eq_dec cid k); [|discriminate]. apply Az. congruence.
  - intros y z b Hy Hz Ay. destruct (concerns b z) eqn:Az; [|reflexivity]. exfalso. apply (proj2 (Z1 z Hz)) in Az. destruct Hy as [<-|[<-|[]]]; cbn [concerns] in Ay; [discriminate|]. destruct (eq_dec a b); [|discriminate]. congruence.
  - intros y [<-|[<-|[]]]; exact Logic.I.
Qed.

(** ** The driver *)
Lemma pubs_get s : SI s -> forall a st, In (a, st) (sb_pubs s) -> mget a (sb_pubs s) = Some st.
Proof using. intros I a st Hi. apply in_mget; [apply (si_nd _ I)|exact Hi]. Qed.
Lemma command_same c s s' o : SI s -> sb_command initial c s = (s', o) -> exists o', sp_command initial c s = (s', o') /\ same_story o o'.
Proof.
  intros I. assert (Q : forall u, (u, o) = (s', o) -> exists o', (u, o) = (s', o') /\ same_story o o') by (intros u H; exists o; split; [exact H|apply story_refl]).
  destruct c as [t|t|b|b|]; cbn [sb_command sp_command]; try (intros H; exists o; split; [exact H|apply story_refl]).
  - destruct (smem t (sb_topics s)) eqn:M; [intros H; exists o; split; [exact H|apply story_refl]|]. cbv zeta. apply tell_same; cbn [sb_set_topics sb_pubs]; [|apply (si_nd _ I)|now apply pubs_get].
    apply SI_topics; [exact I|]. unfold sins. rewrite M. apply SubDriverP5.nodup_snoc; [apply (si_top _ I)|]. intros H. apply smem_true in H. congruence.
  - destruct (smem t (sb_topics s)) eqn:M; [|intros H; exists o; split; [exact H|apply story_refl]]. cbv zeta. apply tell_same; cbn [sb_set_topics sb_pubs]; [|apply (si_nd _ I)|now apply pubs_get].
    apply SI_topics; [exact I|]. apply nodup_sdel. apply (si_top _ I).
Qed.
Lemma iter_same d s s' o b : SI s -> sb_iter token ingress initial D d s = (s', o, b) -> exists o', sp_iter token ingress initial D d s = (s', o', b) /\ same_story o o'.
Proof.
  intros I. unfold sb_iter, sp_iter. destruct (sb_entries ingress initial D _ (yd_now d) s) as [[s1 o1] p] eqn:E.
  destruct (pass_entries _ _ _ _ _ _ I (arrange_nodup _ _ (si_nd _ I)) E) as (o1' & P1 & S1). rewrite P1. destruct p; [intros [= <- <- <-]; eauto|].
  assert (I1 : SI s1) by (exact (proj1 (entries_held ingress initial D _ _ _ _ _ _ I E))).
  unfold sb_next_command, sp_next_command. destruct (sb_cmdq s1) as [|c q].
  - destruct (match yd_join d with Some (k, r, order) => sb_join token k r order s1 | None => (s1, [], false) end) as [[s3 o3] j]. intros [= <- <- <-]. eexists. split; [reflexivity|]. apply story_app; [exact S1|apply story_refl].
  - destruct (sb_command initial c (sb_set_cmdq s1 q)) as [s2 o2] eqn:C. destruct (command_same _ _ _ _ (SI_cmdq _ q I1) C) as (o2' & C2 & S2). rewrite C2. intros [= <- <- <-]. eexists. split; [reflexivity|].
    apply story_app; [exact S1|]. apply (story_app [UCmd c] [UCmd c]); [apply story_refl|exact S2].
Qed.
Lemma poll_same : forall ds s s' o r, SI s -> sb_poll token ingress initial D ds s = (s', o, r) -> exists o', sp_poll token ingress initial D ds s = (s', o', r) /\ same_story o o'.
Proof.
  induction ds as [|d ds IH]; intros s s' o r I; cbn [sb_poll sp_poll]; [intros [= <- <- <-]; exists []; split; [reflexivity|apply story_refl]|].
  destruct (sb_iter token ingress initial D d s) as [[s1 o1] b] eqn:E. destruct (iter_same _ _ _ _ _ I E) as (o1' & E1 & S1). rewrite E1. destruct b; [|intros [= <- <- <-]; eauto].
  destruct (sb_poll token ingress initial D ds s1) as [[s2 o2] r2] eqn:P. assert (I1 : SI s1) by (exact (proj2 (iter_work_d token ingress initial D _ _ _ _ I E))). destruct (IH _ _ _ _ I1 P) as (o2' & P2 & S2). rewrite P2. intros [= <- <- <-].
  eexists. split; [reflexivity|]. now apply story_app.
Qed.

Lemma iter_b_same d s s' o' b : SI s -> sp_iter_b token ingress initial D d s = (s', o', b) -> exists o evs, run s evs = (s', o) /\ same_story o o' /\ SI s'.
Proof.
  destruct d as [d sk]. intros I. unfold sp_iter_b. set (l := filter _ _). assert (Nd : NoDup l) by (apply NoDup_filter, arrange_nodup, (si_nd _ I)).
  destruct (sb_entries ingress initial D l (yd_now d) s) as [[s1 o1] p] eqn:E. destruct (pass_entries _ _ _ _ _ _ I Nd E) as (o1' & P1 & S1). rewrite P1.
  pose proof (proj1 (entries_held ingress initial D _ _ _ _ _ _ I E)) as I1. apply (entries_run token) in E.
  destruct p; [intros [= <- <- <-]; eauto 6|].
  destruct (if sk_cmd sk then (s1, [], false) else sb_next_command initial s1) as [[s2 o2] c] eqn:C.
  assert (X : exists o2', (if sk_cmd sk then (s1, [], false) else sp_next_command initial s1) = (s2, o2', c) /\ same_story o2 o2').
  { destruct (sk_cmd sk); [injection C as <- <- <-; exists []; split; [reflexivity|apply story_refl]|]. revert C. unfold sb_next_command, sp_next_command. destruct (sb_cmdq s1) as [|x q]; [intros [= <- <- <-]; exists []; split; [reflexivity|apply story_refl]|].
    destruct (sb_command initial x (sb_set_cmdq s1 q)) as [u uo] eqn:Cc. destruct (command_same _ _ _ _ (SI_cmdq _ q I1) Cc) as (o2' & C2 & S2). rewrite C2. intros [= <- <- <-]. eexists. split; [reflexivity|].
    apply (story_app [UCmd x] [UCmd x]); [apply story_refl|exact S2]. }
  destruct X as (o2' & X1 & X2). rewrite X1. clear X1.
  assert (R2 : exists e2, run s1 e2 = (s2, o2) /\ SI s2).
  { destruct (sk_cmd sk); [injection C as <- <- <-; exists []; split; [reflexivity|exact I1]|]. exists [YCommand]. cbn [sb_run sb_act]. rewrite C. rewrite app_nil_r. split; [reflexivity|]. exact (proj1 (next_command_step initial D _ _ _ _ I1 C)). }
  destruct R2 as (e2 & R2 & I2). assert (R12 : run s (map (fun a => YEntry a (yd_now d)) l ++ e2) = (s2, o1 ++ o2)) by (rewrite (run_app token ingress initial D), E, R2; reflexivity).
  destruct c.
  - intros [= <- <- <-]. exists (o1 ++ o2). eexists. split; [exact R12|]. split; [now apply story_app|exact I2].
  - destruct (match yd_join d with Some (k, r, order) => sb_join token k r order s2 | None => (s2, [], false) end) as [[s3 o3] j] eqn:J.
    intros [= <- <- <-]. exists ((o1 ++ o2) ++ o3).
    assert (R3 : exists e3, run s2 e3 = (s3, o3) /\ SI s3).
    { destruct (yd_join d) as [[[k r] order]|]; [|injection J as <- <- <-; exists []; split; [reflexivity|exact I2]]. exists [YJoin k r order]. cbn [sb_run sb_act]. rewrite J, app_nil_r. split; [reflexivity|]. exact (proj1 (join_step token D _ _ _ _ _ _ _ I2 J)). }
    destruct R3 as (e3 & R3 & I3). eexists. split; [rewrite (run_app token ingress initial D (map (fun a => YEntry a (yd_now d)) l ++ e2) e3), R12, R3; reflexivity|]. split; [|exact I3].
    rewrite (app_assoc o1' o2' o3). apply story_app; [now apply story_app|apply story_refl].
Qed.
Lemma poll_b_same : forall ds s s' o' r, SI s -> sp_poll_b token ingress initial D ds s = (s', o', r) -> exists o evs, run s evs = (s', o) /\ same_story o o' /\ SI s'.
Proof.
  induction ds as [|d ds IH]; intros s s' o' r I; cbn [sp_poll_b]; [intros [= <- <- <-]; exists [], []; split; [reflexivity|]; split; [apply story_refl|exact I]|].
  destruct (sp_iter_b token ingress initial D d s) as [[s1 o1] b] eqn:E. destruct (iter_b_same _ _ _ _ _ I E) as (o1' & e1 & R1 & S1 & I1). destruct b; [|intros [= <- <- <-]; eauto 6].
  destruct (sp_poll_b token ingress initial D ds s1) as [[s2 o2] r2] eqn:P. destruct (IH _ _ _ _ I1 P) as (o2' & e2 & R2 & S2 & I2). intros [= <- <- <-].
  exists (o1' ++ o2'), (e1 ++ e2). split; [rewrite (run_app token ingress initial D), R1, R2; reflexivity|]. split; [now apply story_app|exact I2].
Qed.
Lemma sp_run_same : forall evs s s' o', SI s -> sp_run token ingress initial D s evs = (s', o') -> exists o evs2, run s evs2 = (s', o) /\ same_story o o' /\ SI s'.
Proof.
  induction evs as [|e evs IH]; intros s s' o' I; cbn [sp_run]; [intros [= <- <-]; exists [], []; split; [reflexivity|]; split; [apply story_refl|exact I]|].
  destruct (sp_act token ingress initial D s e) as [s1 o1] eqn:A. destruct (sp_run token ingress initial D s1 evs) as [s2 o2] eqn:R. intros [= <- <-].
  assert (X : exists o e1, run s e1 = (s1, o) /\ same_story o o1 /\ SI s1).
  { destruct e as [ds|ev]; cbn [sp_act] in A.
    - destruct (sp_poll_b token ingress initial D ds s) as [[u uo] r] eqn:P. injection A as <- <-. eapply poll_b_same; eauto.
    - exists o1, [ev]. cbn [sb_run]. rewrite A, app_nil_r. split; [reflexivity|]. split; [apply story_refl|]. exact (proj1 (act_step token ingress initial D _ _ _ _ I A)). }
  destruct X as (o1' & e1 & R1 & S1 & I1). destruct (IH _ _ _ I1 R) as (o2' & e2 & R2 & S2 & I2).
  exists (o1' ++ o2'), (e1 ++ e2). split; [rewrite (run_app token ingress initial D), R1, R2; reflexivity|]. split; [now apply story_app|exact I2].
Qed.
End P.

(*@prop The driver as it is written: it looks at all the publishers first and dials, resets and removes afterwards, in that order; and it tries to send a command to all of them before it resets those that
    are gone.  Whatever happened before: a poll ends in the same state, and as ready, as one that deals with each publisher at once (which the other theorems about the subscriber speak of), the same things
    are done and reported, each connection and each publisher sees them in the same order, and so does the application.  So what such a poll does is what some run of single steps does. *)
Lemma C96_passes_as_written_pf :
  forall token ingress initial D evs s L ds s' o' r,
  sb_run token ingress initial D sb_init evs = (s, L) -> sp_poll token ingress initial D ds s = (s', o', r) ->
  exists o evs2, sb_poll token ingress initial D ds s = (s', o, r) /\ sb_run token ingress initial D s evs2 = (s', o) /\ same_story o o'.
Proof.
  intros token ingress initial D evs s L ds s' o' r R P. destruct (sb_poll token ingress initial D ds s) as [[t o] q] eqn:E.
  destruct (poll_same token ingress initial D _ _ _ _ _ (run_SI token ingress initial D _ _ _ R) E) as (o2 & P2 & S). rewrite P in P2. injection P2 as <- <- <-.
  destruct (poll_run token ingress initial D _ _ _ _ _ E) as (evs2 & R2). exists o, evs2. auto.
Qed.

(*@prop Whole histories, with the driver as it is written, and with channels and timers that may say at any time that there is nothing though there is (which is what tokio's cooperative budget does): each
    ends in a state that some history of single steps ends in, and the two tell the same story. *)
Lemma C96_histories_as_written_pf :
  forall token ingress initial D evs s L', sp_run token ingress initial D sb_init evs = (s, L') ->
  exists L evs2, sb_run token ingress initial D sb_init evs2 = (s, L) /\ same_story L L'.
Proof.
  intros token ingress initial D evs s L' R. destruct (sp_run_same token ingress initial D _ _ _ _ SI_init R) as (L & evs2 & R2 & S & _). eauto.
Qed.

(*@example Two publishers: the first cannot be reached and its wait is over, the second has sent a message.  The poll, as written, delivers the message before it dials; dealing with each publisher at once
    would dial first. *)
Lemma C96_example_pf :
  let a1 := sx_addr in let a2 := AV4 2130706433 81 in
  let s := fst (sx_run [YApi (ApConnect true (Some a1)); YApi (ApConnect true (Some a2)); YCommand; YCommand; YJoin 0 JFail []; YJoin 0 (JConn true []) []; YSess 0 (sx_env (sx_msg x00 [x07])); YEntry a1 0]) in
  let d := mkYd 1000 [a1; a2] None in
  let q := sp_poll None 4 1000 sx_D [d; d] s in let q2 := sb_poll None 4 1000 sx_D [d; d] s in
  map (fun x => match x with UDeliver _ _ a _ _ => Some (inl a) | UConnect a => Some (inr a) | _ => None end) (snd (fst q)) = [Some (inl a2); Some (inr a1)] /\
  map (fun x => match x with UDeliver _ _ a _ _ => Some (inl a) | UConnect a => Some (inr a) | _ => None end) (snd (fst q2)) = [Some (inr a1); Some (inl a2)] /\
  fst (fst q) = fst (fst q2) /\ snd q = true.
Proof. cbv zeta. repeat split; vm_compute; reflexivity. Qed.
