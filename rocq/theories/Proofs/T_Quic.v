(** C92: a QUIC listener hands on every connection, once and in order. *)
From Coq Require Import List NArith.
From Verif Require Import Model.Base Model.QuicAccept Spec.QuicSpec.
Import ListNotations.
Open Scope N_scope.
(*HEADEND*)
From Coq Require Import ZArith ZifyBool ZifyNat ZifyN Bool Lia.
Local Open Scope N_scope.

Definition iconn (i : qitem) : list N := match i with QiConn c => [c] | QiClosed => [] end.
Definition slot (s : qa) : list qitem := match qa_task s with QtSending i => [i] | _ => [] end.
Definition waiting (s : qa) : list N := flat_map iconn (qa_chan s) ++ flat_map iconn (slot s) ++ qa_backlog s.

Lemma run_app : forall a b s, qa_run s (a ++ b) = let (s1, o1) := qa_run s a in let (s2, o2) := qa_run s1 b in (s2, o1 ++ o2).
Proof.
  induction a as [|e a IH]; intros b s; cbn [app qa_run]; [now destruct (qa_run s b)|].
  destruct (qa_act s e) as [s1 o1]. rewrite IH. destruct (qa_run s1 a) as [s2 o2]. destruct (qa_run s2 b) as [s3 o3]. now rewrite app_assoc.
Qed.
Lemma arrived_app a b : arrived (a ++ b) = arrived a ++ arrived b. Proof. apply flat_map_app. Qed.
Lemma handed_app a b : handed_on (a ++ b) = handed_on a ++ handed_on b. Proof. apply flat_map_app. Qed.
Lemma lost_arr l : arrived (flat_map item_lost l) = [] /\ handed_on (flat_map item_lost l) = [].
Proof. induction l as [|[c|] l [A B]]; cbn; auto. Qed.
Lemma lost_arr2 l : arrived (map ALost l) = [] /\ handed_on (map ALost l) = [].
Proof. induction l as [|c l [A B]]; cbn; auto. Qed.

(** One step: what arrives is added behind, what is handed on is taken off the front. *)
Definition ok (s : qa) : Prop := (qa_alive s = true -> qa_task s <> QtEnded) /\ (qa_task s = QtNone -> qa_chan s = []) /\ blen (qa_chan s) <= 32.

Lemma act_ok s e s' o : qa_act s e = (s', o) -> ok s -> ok s' /\ ~ In APanic o.
Proof.
  intros E (A & B & C). unfold ok. destruct s as [bl f t ch al]. cbn [qa_backlog qa_failed qa_task qa_chan qa_alive] in *.
  destruct e; cbn [qa_act qa_backlog qa_failed qa_task qa_chan qa_alive] in E; unfold qa_held in E; cbn [qa_alive qa_task] in E.
  - destruct (_ && _) in E; injection E as <- <-; cbn [qa_backlog qa_failed qa_task qa_chan qa_alive]; (split; [auto|]); intros [H | []]; discriminate.
  - injection E as <- <-. cbn. split; [auto|]. tauto.
  - destruct t as [| |i|].
    + injection E as <- <-. cbn. split; [auto|tauto].
    + destruct f; [|destruct bl]; injection E as <- <-; cbn [qa_backlog qa_failed qa_task qa_chan qa_alive]; (split; [|intros []]); (split; [discriminate|split; [discriminate|assumption]]) || auto.
    + destruct al.
      * destruct (N.ltb_spec (blen ch) QUIC_CHAN) as [L|L]; injection E as <- <-; cbn [qa_backlog qa_failed qa_task qa_chan qa_alive]; (split; [|intros []]).
        -- split; [discriminate|split; [discriminate|]]. unfold blen, QUIC_CHAN in *. rewrite app_length. cbn [length]. lia.
        -- auto.
      * injection E as <- <-. cbn [qa_backlog qa_failed qa_task qa_chan qa_alive]. split; [split; [discriminate|split; [discriminate|assumption]]|].
        rewrite !in_app_iff, in_map_iff. intros [H | [(x & H & _) | [H | []]]]; try discriminate. destruct i; cbn in H; [destruct H as [H | []]; discriminate|exact H].
    + injection E as <- <-. cbn. split; [auto|tauto].
  - destruct al.
    + assert (T : match t with QtNone => QtAccepting | t => t end <> QtEnded) by (specialize (A eq_refl); destruct t; congruence).
      assert (T2 : match t with QtNone => QtAccepting | t => t end <> QtNone) by (destruct t; congruence).
      destruct ch as [|[c|] r]; injection E as <- <-; cbn [qa_backlog qa_failed qa_task qa_chan qa_alive].
      * split; [split; [intros _; destruct t; first [discriminate|exact T]|split; [destruct t; discriminate|exact C]]|]. destruct t; intros [H | []]; try discriminate. now specialize (A eq_refl).
      * split; [split; [intros _; destruct t; first [discriminate|exact T]|split; [destruct t; discriminate|]]|]. { unfold blen in *. cbn [length] in C. lia. } intros [H | []]; discriminate.
      * split; [split; [intros _; destruct t; first [discriminate|exact T]|split; [destruct t; discriminate|]]|]. { unfold blen in *. cbn [length] in C. lia. } intros [H | []]; discriminate.
    + injection E as <- <-. cbn. split; [auto|tauto].
  - destruct al.
    + assert (L : forall l, ~ In APanic (flat_map item_lost l)).
      { intros l H. apply in_flat_map in H. destruct H as ([c|] & _ & H); cbn in H; [destruct H as [H | []]; discriminate|exact H]. }
      assert (L2 : forall l, ~ In APanic (map ALost l)). { intros l H. apply in_map_iff in H. destruct H as (x & H & _). discriminate. }
      destruct t; injection E as <- <-; cbn [qa_backlog qa_failed qa_task qa_chan qa_alive]; (split; [split; [discriminate|split; [reflexivity|cbn; lia]]|]).
      * intros [H | H]; [discriminate|]. rewrite !in_app_iff in H. destruct H as [H | [H | [H | []]]]; try discriminate; [eapply L; eauto|eapply L2; eauto].
      * intros [H | H]; [discriminate|]. eapply L; eauto.
      * intros [H | H]; [discriminate|]. eapply L; eauto.
      * intros [H | H]; [discriminate|]. eapply L; eauto.
    + injection E as <- <-. cbn. split; [auto|tauto].
Qed.

Lemma run_ok : forall evs s s' o, qa_run s evs = (s', o) -> ok s -> ok s' /\ ~ In APanic o.
Proof.
  induction evs as [|e evs IH]; intros s s' o E K; cbn [qa_run] in E; [injection E as <- <-; split; [assumption|auto]|].
  destruct (qa_act s e) as [s1 o1] eqn:A. destruct (qa_run s1 evs) as [s2 o2] eqn:R. injection E as <- <-.
  destruct (act_ok _ _ _ _ A K) as [K1 P1]. destruct (IH _ _ _ R K1) as [K2 P2]. split; [assumption|]. rewrite in_app_iff. tauto.
Qed.
Lemma bound_ok : ok qa_bound. Proof. split; [discriminate|split; [reflexivity|cbn; lia]]. Qed.

(** While the transport exists: arrived + already waiting = handed on + still waiting. *)
Lemma act_wait s e s' o : qa_act s e = (s', o) -> ok s -> qa_alive s' = true -> waiting s ++ arrived o = handed_on o ++ waiting s'.
Proof.
  intros E (_ & B & _) AL. destruct s as [bl f t ch al]. cbn [qa_task qa_chan] in B. unfold waiting, slot.
  destruct e; cbn [qa_act qa_backlog qa_failed qa_task qa_chan qa_alive] in E; unfold qa_held in E; cbn [qa_alive qa_task] in E.
  - destruct (_ && _) in E; injection E as <- <-; cbn [qa_backlog qa_failed qa_task qa_chan qa_alive arrived handed_on flat_map app]; rewrite ?app_nil_r, <- ?app_assoc; reflexivity.
  - injection E as <- <-. cbn [qa_backlog qa_failed qa_task qa_chan qa_alive arrived handed_on flat_map app]. now rewrite app_nil_r.
  - destruct t as [| |i|].
    + injection E as <- <-. cbn [arrived handed_on flat_map app]. now rewrite app_nil_r.
    + destruct f; [|destruct bl]; injection E as <- <-; cbn [qa_backlog qa_failed qa_task qa_chan qa_alive arrived handed_on flat_map app iconn]; rewrite ?app_nil_r; reflexivity.
    + destruct al.
      * destruct (blen ch <? QUIC_CHAN); injection E as <- <-; cbn [qa_backlog qa_failed qa_task qa_chan qa_alive arrived handed_on flat_map app]; rewrite ?flat_map_app; cbn [flat_map]; rewrite ?app_nil_r, <- ?app_assoc; reflexivity.
      * injection E as <- <-. discriminate AL.
    + injection E as <- <-. cbn [arrived handed_on flat_map app]. now rewrite app_nil_r.
  - destruct al.
    + destruct ch as [|[c|] r]; injection E as <- <-; cbn [qa_backlog qa_failed qa_task qa_chan qa_alive arrived handed_on flat_map app iconn]; destruct t; cbn [flat_map app]; rewrite ?app_nil_r; reflexivity.
    + injection E as <- <-. discriminate AL.
  - destruct al; [destruct t|]; injection E as <- <-; discriminate AL.
Qed.
Lemma act_dead s e s' o : qa_act s e = (s', o) -> qa_alive s = false -> qa_alive s' = false /\ handed_on o = [].
Proof.
  intros E D. destruct s as [bl f t ch al]. cbn in D. subst al.
  destruct e; cbn [qa_act qa_backlog qa_failed qa_task qa_chan qa_alive] in E; unfold qa_held in E; cbn [qa_alive qa_task orb] in E.
  - destruct (_ && _) in E; injection E as <- <-; auto.
  - injection E as <- <-; auto.
  - destruct t as [| |i|]; [|destruct f; [|destruct bl]| |]; injection E as <- <-; auto.
    split; [reflexivity|]. rewrite !handed_app. destruct (lost_arr [i]) as [_ X]. cbn [flat_map] in X. rewrite app_nil_r in X. rewrite X. destruct (lost_arr2 bl) as [_ Y]. now rewrite Y.
  - injection E as <- <-; auto.
  - injection E as <- <-; auto.
Qed.
Lemma act_drop s e s' o : qa_act s e = (s', o) -> qa_alive s = true -> qa_alive s' = false -> handed_on o = [].
Proof.
  intros E D D'. destruct s as [bl f t ch al]. cbn in D. subst al.
  destruct e; cbn [qa_act qa_backlog qa_failed qa_task qa_chan qa_alive] in E; unfold qa_held in E; cbn [qa_alive qa_task orb] in E.
  - destruct (_ && _) in E; injection E as <- <-; discriminate.
  - injection E as <- <-; discriminate.
  - destruct t as [| |i|]; [|destruct f; [|destruct bl]|destruct (_ <? _)|]; injection E as <- <-; discriminate.
  - destruct ch as [|[c|] r]; injection E as <- <-; discriminate.
  - destruct (lost_arr ch) as [_ X]. destruct (lost_arr2 bl) as [_ Y].
    destruct t; injection E as <- <-; match goal with |- handed_on (ADropped :: ?x) = [] => change (handed_on x = []) end; rewrite ?handed_app, X, ?Y; reflexivity.
Qed.

Lemma run_wait : forall evs s s' o, qa_run s evs = (s', o) -> ok s -> qa_alive s' = true -> waiting s ++ arrived o = handed_on o ++ waiting s'.
Proof.
  induction evs as [|e evs IH]; intros s s' o E K AL; cbn [qa_run] in E; [injection E as <- <-; cbn; now rewrite app_nil_r|].
  destruct (qa_act s e) as [s1 o1] eqn:A. destruct (qa_run s1 evs) as [s2 o2] eqn:R. injection E as <- <-.
  destruct (qa_alive s1) eqn:AL1.
  - destruct (act_ok _ _ _ _ A K) as [K1 _]. rewrite arrived_app, handed_app, app_assoc, (act_wait _ _ _ _ A K AL1), <- !app_assoc. f_equal. apply (IH _ _ _ R K1 AL).
  - exfalso. clear - R AL1 AL. revert s1 s2 o2 R AL1 AL. induction evs as [|e evs IH]; intros s s2 o R A1 AL; cbn [qa_run] in R; [injection R as <- <-; congruence|].
    destruct (qa_act s e) as [s1 o1] eqn:A. destruct (qa_run s1 evs) as [s3 o3] eqn:R2. injection R as <- <-. destruct (act_dead _ _ _ _ A A1) as [D _]. eapply IH; eauto.
Qed.
Lemma run_prefix : forall evs s s' o, qa_run s evs = (s', o) -> ok s -> qa_alive s = true -> exists rest, waiting s ++ arrived o = handed_on o ++ rest.
Proof.
  induction evs as [|e evs IH]; intros s s' o E K AL; cbn [qa_run] in E; [injection E as <- <-; cbn; rewrite app_nil_r; eauto|].
  destruct (qa_act s e) as [s1 o1] eqn:A. destruct (qa_run s1 evs) as [s2 o2] eqn:R. injection E as <- <-. rewrite arrived_app, handed_app.
  destruct (qa_alive s1) eqn:AL1.
  - destruct (act_ok _ _ _ _ A K) as [K1 _]. destruct (IH _ _ _ R K1 AL1) as [rest X]. exists rest. now rewrite app_assoc, (act_wait _ _ _ _ A K AL1), <- !app_assoc, X.
  - rewrite (act_drop _ _ _ _ A AL AL1). assert (X : handed_on o2 = []).
    { clear - R AL1. revert s1 s2 o2 R AL1. induction evs as [|e evs IH]; intros s s2 o R A1; cbn [qa_run] in R; [now injection R as <- <-|].
      destruct (qa_act s e) as [s1 o1] eqn:A. destruct (qa_run s1 evs) as [s3 o3] eqn:R2. injection R as <- <-. destruct (act_dead _ _ _ _ A A1) as [D H]. rewrite handed_app, H. eapply IH; eauto. }
    rewrite X. eexists. reflexivity.
Qed.

(*@prop poll_accept hands on connections only in the order in which they arrived, each one once, and never panics, in every history of a
    bound QUIC transport: arrivals, turns of the accepting task, polls, failures of the endpoint and the drop in any order. *)
Lemma C92_in_order_pf :
  forall evs, let o := snd (qa_run qa_bound evs) in
    (exists rest, arrived o = handed_on o ++ rest) /\ ~ In APanic o.
Proof.
  intros evs o. subst o. destruct (qa_run qa_bound evs) as [s o] eqn:R. cbn [snd]. split; [|apply (run_ok _ _ _ _ R bound_ok)].
  destruct (run_prefix _ _ _ _ R bound_ok eq_refl) as [rest X]. exists rest. exact X.
Qed.

(** ** Nothing is lost *)
Definition left (s : qa) : nat := (3 * length (qa_backlog s) + 2 * length (slot s) + length (qa_chan s))%nat.
Definition unstarted (s : qa) : nat := match qa_task s with QtNone => 1 | _ => 0 end.
Definition live (s : qa) : Prop := qa_alive s = true /\ qa_failed s = false /\ ok s.

Lemma act_live s e s' o : qa_act s e = (s', o) -> running e -> live s ->
  live s' /\ (left s' + unstarted s' <= left s + unstarted s)%nat /\ arrived o = []
  /\ (e = EPoll -> unstarted s' = 0%nat) /\ (unstarted s' <= unstarted s)%nat
  /\ (e = EPoll -> qa_chan s <> [] -> (left s' < left s)%nat)
  /\ (e = EStep -> qa_chan s = [] -> unstarted s = 0%nat -> left s <> 0%nat -> (left s' < left s)%nat)
  /\ (left s' <= left s)%nat.
Proof.
  intros E RN (AL & F & K). pose proof (proj1 (act_ok _ _ _ _ E K)) as K'. unfold live, left, unstarted, slot. destruct s as [bl f t ch al]. cbn [qa_alive qa_failed] in AL, F. subst al f.
  destruct RN as [-> | ->]; cbn [qa_act qa_backlog qa_failed qa_task qa_chan qa_alive] in E.
  - destruct t as [| |i|].
    + injection E as <- <-. cbn [qa_backlog qa_failed qa_task qa_chan qa_alive length] in *. split; [split; [reflexivity|split; [reflexivity|exact K']]|]. repeat split; try discriminate; try lia.
    + destruct bl as [|c bl]; injection E as <- <-; cbn [qa_backlog qa_failed qa_task qa_chan qa_alive length] in *; (split; [split; [reflexivity|split; [reflexivity|exact K']]|]); repeat split; try discriminate; try lia.
      intros _ -> _ X. now cbn in X.
    + destruct (N.ltb_spec (blen ch) QUIC_CHAN) as [L|L]; injection E as <- <-; cbn [qa_backlog qa_failed qa_task qa_chan qa_alive length] in *; (split; [split; [reflexivity|split; [reflexivity|exact K']]|]);
        rewrite ?app_length; cbn [length]; repeat split; try discriminate; try lia. intros _ -> _ _. unfold blen, QUIC_CHAN in L. cbn in L. lia.
    + exfalso. destruct K as (K & _). now apply K.
  - destruct ch as [|[c|] r]; injection E as <- <-; cbn [qa_backlog qa_failed qa_task qa_chan qa_alive length] in *; (split; [split; [reflexivity|split; [reflexivity|exact K']]|]); destruct t; cbn [length]; repeat split; try discriminate; try lia; congruence.
Qed.

Lemma seg_live : forall seg s s' o, qa_run s seg = (s', o) -> Forall running seg -> live s ->
  live s' /\ arrived o = [] /\ (left s' <= left s)%nat /\ (unstarted s' <= unstarted s)%nat
  /\ (In EPoll seg -> unstarted s' = 0%nat)
  /\ (In EStep seg -> In EPoll seg -> unstarted s = 0%nat -> left s <> 0%nat -> (left s' < left s)%nat).
Proof.
  induction seg as [|e seg IH]; intros s s' o E RN L; cbn [qa_run] in E; [injection E as <- <-; split; [exact L|split; [reflexivity|split; [lia|split; [lia|split; [intros []|intros []]]]]]|].
  destruct (qa_act s e) as [s1 o1] eqn:A. destruct (qa_run s1 seg) as [s2 o2] eqn:R. injection E as <- <-.
  assert (Re : running e) by now inversion RN. assert (Rs : Forall running seg) by now inversion RN.
  destruct (act_live _ _ _ _ A Re L) as (L1 & _ & a1 & u1 & v1 & p1 & q1 & w1).
  destruct (IH _ _ _ R Rs L1) as (L2 & a2 & w2 & v2 & u2 & d2). split; [exact L2|]. rewrite arrived_app, a1, a2. split; [reflexivity|]. split; [lia|]. split; [lia|].
  split. { intros [-> | P]; [specialize (u1 eq_refl); lia|auto]. }
  intros S P U N0.
  (* either the channel is empty at the start, then the first turn of the task counts; or not, then the first poll does *)
  destruct (Nat.eq_dec (left s1) (left s)) as [Eq|Ne]; [|lia].
  destruct S as [-> | S], P as [E2 | P]; try discriminate E2.
  - (* the task first, and nothing happened: the channel is not empty *)
    assert (C : qa_chan s <> []) by (intros C; specialize (q1 eq_refl C U N0); lia).
    clear IH d2. assert (C1 : qa_chan s1 <> []).
    { clear - A C. destruct s as [bl f t ch al]. cbn [qa_act qa_backlog qa_failed qa_task qa_chan qa_alive] in *. destruct t as [| |i|]; [|destruct f; [|destruct bl]|destruct al; [destruct (_ <? _)|]|]; injection A as <- _; cbn; auto. destruct ch; discriminate. }
    rewrite <- Eq. clear - R Rs L1 C1 P. revert s1 s2 o2 R L1 C1. induction seg as [|e seg IH]; intros s1 s2 o2 R L1 C1; [destruct P|]. cbn [qa_run] in R.
    destruct (qa_act s1 e) as [s3 o3] eqn:A. destruct (qa_run s3 seg) as [s4 o4] eqn:R4. injection R as <- <-.
    assert (Re : running e) by now inversion Rs. assert (Rs' : Forall running seg) by now inversion Rs.
    destruct (act_live _ _ _ _ A Re L1) as (L3 & _ & _ & _ & _ & p3 & _ & w3).
    assert (W : (left s4 <= left s3)%nat). { clear - R4 Rs' L3. revert s3 s4 o4 R4 L3. induction seg as [|e seg IH]; intros s3 s4 o4 R L3; cbn [qa_run] in R; [injection R as <- <-; lia|].
      destruct (qa_act s3 e) as [s5 o5] eqn:A. destruct (qa_run s5 seg) as [s6 o6] eqn:R6. injection R as <- <-. assert (Re : running e) by now inversion Rs'. assert (Rs : Forall running seg) by now inversion Rs'.
      destruct (act_live _ _ _ _ A Re L3) as (L5 & _ & _ & _ & _ & _ & _ & w5). specialize (IH Rs _ _ _ R6 L5). lia. }
    destruct Re as [-> | ->].
    + destruct P as [P | P]; [discriminate P|]. assert (C3 : qa_chan s3 <> []).
      { clear - A C1. destruct s1 as [bl f t ch al]. cbn [qa_act qa_backlog qa_failed qa_task qa_chan qa_alive] in *. destruct t as [| |i|]; [|destruct f; [|destruct bl]|destruct al; [destruct (_ <? _)|]|]; injection A as <- _; cbn; auto. destruct ch; discriminate. }
      specialize (IH Rs' P _ _ _ R4 L3 C3). lia.
    + specialize (p3 eq_refl C1). lia.
  - (* a poll first that found nothing: the channel is empty still, the next turn of the task counts *)
    subst e. specialize (u1 eq_refl). assert (C : qa_chan s = []) by (destruct (qa_chan s) eqn:X; [reflexivity|]; assert (Y : q :: l <> []) by discriminate; specialize (p1 eq_refl Y); lia).
    clear IH d2. assert (C1 : qa_chan s1 = []).
    { clear - A C L. destruct L as (AL & _). destruct s as [bl f t ch al]. cbn [qa_act qa_backlog qa_failed qa_task qa_chan qa_alive] in *. subst al ch. now injection A as <- _. }
    rewrite <- Eq in *. clear - R Rs L1 C1 S u1 N0. revert s1 s2 o2 R L1 C1 u1 N0. induction seg as [|e seg IH]; intros s1 s2 o2 R L1 C1 u1 N0; [destruct S|]. cbn [qa_run] in R.
    destruct (qa_act s1 e) as [s3 o3] eqn:A. destruct (qa_run s3 seg) as [s4 o4] eqn:R4. injection R as <- <-.
    assert (Re : running e) by now inversion Rs. assert (Rs' : Forall running seg) by now inversion Rs.
    destruct (act_live _ _ _ _ A Re L1) as (L3 & _ & _ & u3 & v3 & _ & q3 & w3).
    assert (W : (left s4 <= left s3)%nat). { clear - R4 Rs' L3. revert s3 s4 o4 R4 L3. induction seg as [|e seg IH]; intros s3 s4 o4 R L3; cbn [qa_run] in R; [injection R as <- <-; lia|].
      destruct (qa_act s3 e) as [s5 o5] eqn:A. destruct (qa_run s5 seg) as [s6 o6] eqn:R6. injection R as <- <-. assert (Re : running e) by now inversion Rs'. assert (Rs : Forall running seg) by now inversion Rs'.
      destruct (act_live _ _ _ _ A Re L3) as (L5 & _ & _ & _ & _ & _ & _ & w5). specialize (IH Rs _ _ _ R6 L5). lia. }
    destruct Re as [-> | ->].
    + specialize (q3 eq_refl C1 u1 N0). lia.
    + destruct S as [S | S]; [discriminate S|]. assert (C3 : qa_chan s3 = []).
      { clear - A C1 L1. destruct L1 as (AL & _). destruct s1 as [bl f t ch al]. cbn [qa_act qa_backlog qa_failed qa_task qa_chan qa_alive] in *. subst al ch. now injection A as <- _. }
      destruct (Nat.eq_dec (left s3) (left s1)) as [E3|N3]; [|lia]. specialize (IH Rs' S _ _ _ R4 L3 C3 (u3 eq_refl)). lia.
  - (* neither is first *) destruct Re as [-> | ->].
    + assert (C : qa_chan s <> []) by (intros C; specialize (q1 eq_refl C U N0); lia).
      assert (U1 : unstarted s1 = 0%nat) by lia. specialize (d2 S P U1). lia.
    + assert (U1 : unstarted s1 = 0%nat) by auto. specialize (d2 S P U1). lia.
Qed.

Lemma turns_live : forall n more, turns n more -> Forall running more -> forall s s' o, qa_run s more = (s', o) -> live s ->
  live s' /\ arrived o = [] /\ ((left s + 1 <= n)%nat -> left s' = 0%nat).
Proof.
  induction 1 as [more|n seg more S P T IH]; intros RN s s' o E L.
  - destruct (seg_live _ _ _ _ E RN L) as (L2 & a2 & w2 & _). split; [exact L2|]. split; [exact a2|]. intros X. lia.
  - apply Forall_app in RN. destruct RN as [R1 R2]. rewrite run_app in E. destruct (qa_run s seg) as [s1 o1] eqn:E1. destruct (qa_run s1 more) as [s2 o2] eqn:E2. injection E as <- <-.
    destruct (seg_live _ _ _ _ E1 R1 L) as (L1 & a1 & w1 & v1 & u1 & d1).
    assert (Z : forall k sg x x' ob, turns k sg -> Forall running sg -> qa_run x sg = (x', ob) -> live x -> unstarted x = 0%nat -> (left x <= k)%nat -> left x' = 0%nat).
    { clear. intros k sg x x' ob T. revert x x' ob. induction T as [more|n seg more S P T IH]; intros x x' ob RN E L U X.
      - destruct (seg_live _ _ _ _ E RN L) as (_ & _ & w & _). lia.
      - apply Forall_app in RN. destruct RN as [R1 R2]. rewrite run_app in E. destruct (qa_run x seg) as [s1 o1] eqn:E1. destruct (qa_run s1 more) as [s2 o2] eqn:E2. injection E as <- <-.
        destruct (seg_live _ _ _ _ E1 R1 L) as (L1 & a1 & w1 & v1 & u1 & d1). apply (IH _ _ _ R2 E2 L1); [auto|]. destruct (Nat.eq_dec (left x) 0) as [Z|Z]; [lia|]. specialize (d1 S P U Z). lia. }
    destruct (IH R2 _ _ _ E2 L1) as (L2 & a2 & _). split; [exact L2|]. rewrite arrived_app, a1, a2. split; [reflexivity|]. intros X. apply (Z _ _ _ _ _ T R2 E2 L1); [auto|lia].
Qed.

Lemma run_alive : forall evs s s' o, qa_run s evs = (s', o) -> ~ In EDrop evs -> ~ In EFail evs -> live s -> live s'.
Proof.
  induction evs as [|e evs IH]; intros s s' o E D F L; cbn [qa_run] in E; [now injection E as <- <-|].
  destruct (qa_act s e) as [s1 o1] eqn:A. destruct (qa_run s1 evs) as [s2 o2] eqn:R. injection E as <- <-.
  eapply IH; [exact R|intro; apply D; now right|intro; apply F; now right|].
  destruct L as (AL & FL & K). split; [|split; [|apply (act_ok _ _ _ _ A K)]]; destruct s as [bl f t ch al]; cbn [qa_alive qa_failed] in *; subst al f;
   destruct e; cbn [qa_act qa_backlog qa_failed qa_task qa_chan qa_alive] in A; unfold qa_held in A; cbn [qa_alive qa_task orb andb negb] in A.
  all: try (exfalso; apply F; now left); try (exfalso; apply D; now left).
  all: try (injection A as <- _; reflexivity).
  all: try (destruct t as [| |i|]; [|destruct bl|destruct (_ <? _)|]; injection A as <- _; reflexivity).
  all: destruct ch as [|[c|] r]; injection A as <- _; reflexivity.
Qed.
Lemma left_bound s : (left s <= 3 * length (waiting s) + 3 * length (filter (fun i => match i with QiClosed => true | _ => false end) (qa_chan s ++ slot s)))%nat.
Proof.
  unfold left, waiting. rewrite !app_length, filter_app, app_length.
  assert (X : forall l, length l = (length (flat_map iconn l) + length (filter (fun i => match i with QiClosed => true | _ => false end) l))%nat).
  { induction l as [|[c|] l IH]; cbn [length flat_map filter iconn app]; lia. }
  rewrite (X (slot s)), (X (qa_chan s)). lia.
Qed.
(** no errors in the channel as long as the endpoint has not failed *)
Definition clean (s : qa) : Prop := forall i, In i (qa_chan s ++ slot s) -> i <> QiClosed.
Lemma act_clean s e s' o : qa_act s e = (s', o) -> qa_failed s = false -> clean s -> clean s'.
Proof.
  intros E F C. unfold clean, slot in *. destruct s as [bl f t ch al]. cbn [qa_failed qa_chan qa_task] in *. subst f.
  destruct e; cbn [qa_act qa_backlog qa_failed qa_task qa_chan qa_alive] in E; unfold qa_held in E; cbn [qa_alive qa_task negb] in E.
  - destruct (_ && _) in E; injection E as <- <-; exact C.
  - injection E as <- <-; exact C.
  - destruct t as [| |i|].
    + injection E as <- <-; exact C.
    + destruct bl as [|c bl]; injection E as <- <-; cbn [qa_chan qa_task]; [exact C|]. intros i H. rewrite in_app_iff in H. destruct H as [H | [<- | []]]; [|discriminate]. apply C. rewrite in_app_iff. now left.
    + destruct al; [destruct (_ <? _)|]; injection E as <- <-; cbn [qa_chan qa_task]; [rewrite app_nil_r; exact C|exact C|]. intros j H. apply C. rewrite in_app_iff in *. destruct H as [H | []]. now left.
    + injection E as <- <-; exact C.
  - destruct al.
    + destruct ch as [|[c|] r]; injection E as <- <-; cbn [qa_chan qa_task].
      * destruct t; exact C.
      * intros i H. apply C. rewrite in_app_iff in *. cbn [In]. destruct t; tauto.
      * intros i H. apply C. rewrite in_app_iff in *. cbn [In]. destruct t; tauto.
    + injection E as <- <-; exact C.
  - destruct al; [destruct t|]; injection E as <- <-; cbn [qa_chan qa_task].
    + intros j [].
    + intros j [].
    + intros j H. apply C. rewrite in_app_iff. now right.
    + intros j [].
    + exact C.
Qed.
Lemma run_clean : forall evs s s' o, qa_run s evs = (s', o) -> ~ In EDrop evs -> ~ In EFail evs -> live s -> clean s -> clean s'.
Proof.
  induction evs as [|e evs IH]; intros s s' o E D F L C; cbn [qa_run] in E; [now injection E as <- <-|].
  destruct (qa_act s e) as [s1 o1] eqn:A. destruct (qa_run s1 evs) as [s2 o2] eqn:R. injection E as <- <-.
  assert (D1 : ~ In EDrop [e]) by (intros [-> | []]; apply D; now left). assert (F1 : ~ In EFail [e]) by (intros [-> | []]; apply F; now left).
  eapply IH; [exact R|intro; apply D; now right|intro; apply F; now right| |]; [|eapply act_clean; eauto; apply L].
  apply (run_alive [e] s s1 (o1 ++ [])); auto. cbn [qa_run]. now rewrite A.
Qed.

(*@prop As long as the transport is not dropped and its endpoint does not fail, every connection that has arrived is handed on: whatever
    happened before, a fair schedule of the accepting task and of poll_accept hands on the missing ones; three turns for each of them (and one
    to start the task) are enough. *)
Lemma C92_nothing_lost_pf :
  forall evs more n,
    ~ In EDrop evs -> ~ In EFail evs -> Forall running more -> turns n more ->
    let before := snd (qa_run qa_bound evs) in
    let all := snd (qa_run qa_bound (evs ++ more)) in
    (3 * (length (arrived before) - length (handed_on before)) + 1 <= n)%nat ->
    handed_on all = arrived before /\ arrived all = arrived before.
Proof.
  intros evs more n D F RN T before all N. subst before all. rewrite run_app. destruct (qa_run qa_bound evs) as [s o] eqn:R. destruct (qa_run s more) as [s2 o2] eqn:R2. cbn [snd] in *.
  assert (L0 : live qa_bound) by (split; [reflexivity|split; [reflexivity|exact bound_ok]]).
  pose proof (run_alive _ _ _ _ R D F L0) as L. pose proof L as (AL & FL & K).
  pose proof (run_wait _ _ _ _ R bound_ok AL) as W. change (waiting qa_bound) with (@nil BinNums.N) in W. cbn [app] in W.
  destruct (turns_live _ _ T RN _ _ _ R2 L) as (L2 & a2 & Z). pose proof L2 as (AL2 & _ & K2).
  pose proof (run_wait _ _ _ _ R2 K AL2) as W2. rewrite a2, app_nil_r in W2.
  assert (C0 : clean qa_bound) by (intros i []). pose proof (run_clean _ _ _ _ R D F L0 C0) as C.
  assert (B : (left s <= 3 * length (waiting s))%nat).
  { pose proof (left_bound s) as B. assert (Y : filter (fun i => match i with QiClosed => true | _ => false end) (qa_chan s ++ slot s) = []).
    { unfold clean in C. revert C. generalize (qa_chan s ++ slot s) as l. clear. induction l as [|i l IH]; intros C; [reflexivity|]. cbn [filter]. destruct i; [apply IH; intros j H; apply C; now right|]. exfalso. apply (C QiClosed); [now left|reflexivity]. }
    rewrite Y in B. cbn [length] in B. lia. }
  rewrite W, app_length in N. assert (Z2 : left s2 = 0%nat) by (apply Z; lia).
  assert (W3 : waiting s2 = []).
  { unfold left in Z2. unfold waiting. destruct (qa_backlog s2); [|cbn in Z2; lia]. destruct (slot s2); [|cbn in Z2; lia]. destruct (qa_chan s2); [reflexivity|cbn in Z2; lia]. }
  rewrite W3, app_nil_r in W2. rewrite handed_app, arrived_app, a2, app_nil_r, <- W2, W. auto.
Qed.

(** ** Dropping the transport *)
Lemma idle_never : forall more s, qa_task s = QtAccepting -> qa_alive s = false -> qa_failed s = false -> qa_backlog s = [] ->
  (forall c, ~ In (EArrive c) more) -> ~ In EFail more -> snd (qa_run s more) = [] /\ qa_held (fst (qa_run s more)) = true.
Proof.
  induction more as [|e more IH]; intros s T AL F B NA NF; [cbn; split; [reflexivity|unfold qa_held; now rewrite T, orb_true_r]|].
  assert (NA' : forall c, ~ In (EArrive c) more) by (intros c H; apply (NA c); now right). assert (NF' : ~ In EFail more) by (intro H; apply NF; now right).
  destruct s as [bl f t ch al]. cbn in T, AL, F, B. subst. cbn [qa_run]. destruct e; cbn [qa_act qa_task qa_failed qa_backlog qa_alive].
  - exfalso. apply (NA c). now left.
  - exfalso. apply NF. now left.
  - destruct (IH (mkQa [] false QtAccepting ch false)) as [X Y]; auto. destruct (qa_run _ more). cbn [fst snd app] in *. auto.
  - destruct (IH (mkQa [] false QtAccepting ch false)) as [X Y]; auto. destruct (qa_run _ more). cbn [fst snd app] in *. auto.
  - destruct (IH (mkQa [] false QtAccepting ch false)) as [X Y]; auto. destruct (qa_run _ more). cbn [fst snd app] in *. auto.
Qed.

(*@prop Dropping the transport does not give its address up: once poll_accept has been called, the accepting task keeps a handle, and unless
    somebody connects (or the endpoint fails) it keeps it for ever, in every continuation. *)
Lemma C92_drop_keeps_address_refuted_pf :
  forall more, (forall c, ~ In (EArrive c) more) -> ~ In EFail more ->
    In ADropped (snd (qa_run qa_bound ([EPoll; EDrop] ++ more))) /\
    ~ In AReleased (snd (qa_run qa_bound ([EPoll; EDrop] ++ more))) /\
    forall c, snd (qa_act (fst (qa_run qa_bound ([EPoll; EDrop] ++ more))) (EArrive c)) = [AArrived c].
Proof.
  intros more NA NF. rewrite run_app.
  change (qa_run qa_bound [EPoll; EDrop]) with (mkQa [] false QtAccepting [] false, [APending; ADropped]). cbv beta iota.
  destruct (idle_never more (mkQa [] false QtAccepting [] false) eq_refl eq_refl eq_refl eq_refl NA NF) as [O H].
  assert (FL : qa_failed (fst (qa_run (mkQa [] false QtAccepting [] false) more)) = false).
  { clear O H. assert (G : forall s, qa_failed s = false -> qa_failed (fst (qa_run s more)) = false); [|now apply G]. clear NA. induction more as [|e more IH]; intros s F; [exact F|].
    cbn [qa_run]. destruct (qa_act s e) as [s1 o1] eqn:A. specialize (IH (fun H => NF (or_intror H)) s1). destruct (qa_run s1 more) as [s2 o2]. cbn [fst] in *. apply IH.
    destruct s as [bl f t ch al]. cbn in F. subst f. destruct e; cbn [qa_act qa_backlog qa_failed qa_task qa_chan qa_alive] in A.
    - destruct (_ && _) in A; injection A as <- _; reflexivity.
    - exfalso. apply NF. now left.
    - destruct t as [| |i|]; [|destruct bl|destruct al; [destruct (_ <? _)|]|]; injection A as <- _; reflexivity.
    - destruct al; [destruct ch as [|[c|] r]|]; injection A as <- _; reflexivity.
    - destruct al; [destruct t|]; injection A as <- _; reflexivity. }
  destruct (qa_run (mkQa [] false QtAccepting [] false) more) as [s2 o2]. cbn [fst snd] in *. subst o2. cbn [app]. split; [cbn; tauto|]. split; [intros [X | [X | []]]; discriminate|].
  intros c. cbn [qa_act]. now rewrite H, FL.
Qed.

Lemma act_release s e s' o : qa_act s e = (s', o) -> qa_alive s = false -> qa_failed s = false -> e <> EFail -> In AReleased o \/
  (qa_alive s' = false /\ qa_failed s' = false /\
   match qa_task s with
   | QtNone => qa_task s' = QtNone | QtEnded => qa_task s' = QtEnded
   | QtSending i => e <> EStep /\ qa_task s' = QtSending i /\ (forall c, In c (qa_backlog s) -> In c (qa_backlog s'))
   | QtAccepting => if match e with EStep => negb (Nat.eqb (length (qa_backlog s)) 0) | _ => false end then exists c, qa_task s' = QtSending (QiConn c) /\ (forall d, In d (qa_backlog s) -> d = c \/ In d (qa_backlog s'))
                    else qa_task s' = QtAccepting /\ (forall c, In c (qa_backlog s) -> In c (qa_backlog s'))
   end).
Proof.
  intros E AL FL NF. destruct s as [bl f t ch al]. cbn [qa_alive qa_failed] in AL, FL. subst al f. cbn [qa_task qa_backlog].
  destruct e; cbn [qa_act qa_backlog qa_failed qa_task qa_chan qa_alive] in E; unfold qa_held in E; cbn [qa_alive qa_task orb negb] in E.
  - right. destruct t; cbn [andb] in E; injection E as <- <-; cbn [qa_backlog qa_failed qa_task qa_chan qa_alive]; repeat split; try discriminate; auto; intros d H; rewrite in_app_iff; now left.
  - now destruct NF.
  - destruct t as [| |i|].
    + right. injection E as <- <-. auto.
    + right. destruct bl as [|c bl]; injection E as <- <-; cbn [qa_backlog qa_failed qa_task qa_chan qa_alive length Nat.eqb negb]; [repeat split; auto|]. split; [reflexivity|split; [reflexivity|]]. exists c. split; [reflexivity|]. intros d [-> | H]; auto.
    + left. injection E as <- <-. rewrite !in_app_iff. right. right. now left.
    + right. injection E as <- <-. auto.
  - right. injection E as <- <-. destruct t; cbn; repeat split; auto; discriminate.
  - right. injection E as <- <-. destruct t; cbn; repeat split; auto; discriminate.
Qed.
Lemma acc_release : forall more s, qa_alive s = false -> qa_failed s = false -> ~ In EFail more ->
  (exists i, qa_task s = QtSending i) /\ (1 <= steps more)%nat \/ qa_task s = QtAccepting /\ qa_backlog s <> [] /\ (2 <= steps more)%nat ->
  In AReleased (snd (qa_run s more)).
Proof.
  induction more as [|e more IH]; intros s AL FL NF H; [cbn in H; destruct H as [[_ H] | (_ & _ & H)]; lia|].
  cbn [qa_run]. destruct (qa_act s e) as [s1 o1] eqn:A. destruct (qa_run s1 more) as [s2 o2] eqn:R. cbn [snd]. rewrite in_app_iff.
  assert (Ne : e <> EFail) by (intros ->; apply NF; now left).
  destruct (act_release _ _ _ _ A AL FL Ne) as [X | (AL1 & FL1 & X)]; [now left|right].
  specialize (IH s1 AL1 FL1 (fun Y => NF (or_intror Y))). rewrite R in IH. cbn [snd] in IH. apply IH. clear IH.
  assert (ST : (steps (e :: more) = (match e with EStep => 1 | _ => 0 end) + steps more)%nat) by (destruct e; reflexivity).
  destruct H as [[[i Hi] L] | (Hi & B & L)]; rewrite Hi in X; rewrite ST in L.
  - left. destruct X as (NS & X & _). split; [eauto|]. destruct e; try lia. congruence.
  - destruct e; try (right; destruct X as [X Y]; split; [exact X|split; [|lia]]; intros Z; destruct (qa_backlog s) as [|d l]; [congruence|]; specialize (Y d (or_introl eq_refl)); now rewrite Z in Y).
    destruct (qa_backlog s) as [|d l] eqn:Bl; [congruence|]. cbn [length Nat.eqb negb] in X. destruct X as (c & X & _). left. split; [eauto|lia].
Qed.

(** Released for good: everything that was there is reported as lost. *)
Definition lost_or (c : N) (s : qa) : Prop := In c (qa_backlog s) \/ qa_task s = QtSending (QiConn c).
Lemma act_lost s e s' o c : qa_act s e = (s', o) -> qa_alive s = false -> lost_or c s -> In (ALost c) o \/ (qa_alive s' = false /\ lost_or c s' /\ ~ In AReleased o).
Proof.
  intros E AL H. unfold lost_or in *. destruct s as [bl f t ch al]. cbn [qa_alive qa_backlog qa_task] in *. subst al.
  destruct e; cbn [qa_act qa_backlog qa_failed qa_task qa_chan qa_alive] in E; unfold qa_held in E; cbn [qa_alive qa_task orb] in E.
  - right. destruct (_ && _) in E; injection E as <- <-; cbn [qa_backlog qa_failed qa_task qa_chan qa_alive]; (split; [reflexivity|split; [|intros [X | []]; discriminate]]); [|tauto]. rewrite in_app_iff. tauto.
  - right. injection E as <- <-. cbn. tauto.
  - destruct t as [| |i|].
    + right. injection E as <- <-. cbn. tauto.
    + right. destruct H as [H | H]; [|discriminate]. destruct f; [|destruct bl as [|d bl]]; injection E as <- <-; cbn [qa_backlog qa_failed qa_task qa_chan qa_alive]; (split; [reflexivity|split; [|intros []]]); auto. destruct H as [-> | H]; auto.
    + left. injection E as <- <-. rewrite !in_app_iff. destruct H as [H | H]; [right; left; now apply in_map|injection H as ->; left; now left].
    + right. injection E as <- <-. cbn. tauto.
  - right. injection E as <- <-. cbn. tauto.
  - right. injection E as <- <-. cbn. tauto.
Qed.
Lemma run_lost : forall more s c, qa_alive s = false -> lost_or c s -> In AReleased (snd (qa_run s more)) -> In (ALost c) (snd (qa_run s more)).
Proof.
  induction more as [|e more IH]; intros s c AL H; [intros []|]. cbn [qa_run]. destruct (qa_act s e) as [s1 o1] eqn:A. destruct (qa_run s1 more) as [s2 o2] eqn:R. cbn [snd]. rewrite !in_app_iff.
  destruct (act_lost _ _ _ _ _ A AL H) as [X | (AL1 & X & Y)]; [now left|]. intros [Z | Z]; [contradiction|]. right. specialize (IH s1 c AL1 X). rewrite R in IH. now apply IH.
Qed.
Lemma run_failed : forall evs s s' o, qa_run s evs = (s', o) -> ~ In EFail evs -> qa_failed s = false -> qa_failed s' = false.
Proof.
  induction evs as [|e evs IH]; intros s s' o E NF F; cbn [qa_run] in E; [now injection E as <- <-|].
  destruct (qa_act s e) as [s1 o1] eqn:A. destruct (qa_run s1 evs) as [s2 o2] eqn:R. injection E as <- <-. apply (IH _ _ _ R (fun X => NF (or_intror X))).
  destruct s as [bl f t ch al]. cbn in F. subst f. destruct e; cbn [qa_act qa_backlog qa_failed qa_task qa_chan qa_alive] in A.
  - destruct (_ && _) in A; injection A as <- _; reflexivity.
  - exfalso. apply NF. now left.
  - destruct t as [| |i|]; [|destruct bl|destruct al; [destruct (_ <? _)|]|]; injection A as <- _; reflexivity.
  - destruct al; [destruct ch as [|[c|] r]|]; injection A as <- _; reflexivity.
  - destruct al; [destruct t|]; injection A as <- _; reflexivity.
Qed.
Lemma run_dead : forall evs s s' o, qa_run s evs = (s', o) -> qa_alive s = false -> qa_alive s' = false.
Proof.
  induction evs as [|e evs IH]; intros s s' o E F; cbn [qa_run] in E; [now injection E as <- <-|].
  destruct (qa_act s e) as [s1 o1] eqn:A. destruct (qa_run s1 evs) as [s2 o2] eqn:R. injection E as <- <-. apply (IH _ _ _ R). apply (act_dead _ _ _ _ A F).
Qed.

(*@prop What does hold after a drop: the first client that tries to connect afterwards makes the accepting task notice (its second turn at
    the latest).  The address is then given up, and the connection of this client is lost unless it was refused in the first place. *)
Lemma C92_released_by_next_client_partial_pf :
  forall evs mid c more,
    ~ In EFail (evs ++ EDrop :: mid ++ EArrive c :: more) -> (2 <= steps more)%nat ->
    let o := snd (qa_run qa_bound (evs ++ EDrop :: mid ++ EArrive c :: more)) in
    In AReleased o /\ (In (ALost c) o \/ In (AUnreachable c) o).
Proof.
  intros evs mid c more NF ST o. subst o.
  replace (evs ++ EDrop :: mid ++ EArrive c :: more) with ((evs ++ EDrop :: mid) ++ EArrive c :: more) in * by (rewrite <- app_assoc; reflexivity).
  rewrite run_app. destruct (qa_run qa_bound (evs ++ EDrop :: mid)) as [s o] eqn:R.
  assert (AL : qa_alive s = false).
  { rewrite run_app in R. destruct (qa_run qa_bound evs) as [s1 o1]. cbn [qa_run] in R. destruct (qa_act s1 EDrop) as [s2 o2] eqn:A. destruct (qa_run s2 mid) as [s3 o3] eqn:R3. injection R as <- <-. eapply run_dead; [exact R3|].
    cbn [qa_act] in A. destruct (qa_alive s1) eqn:AL1; [|now injection A as <- _]. destruct (qa_task s1); injection A as <- _; reflexivity. }
  assert (FL : qa_failed s = false). { eapply run_failed; [exact R| |reflexivity]. intros X. apply NF. rewrite in_app_iff. now left. }
  assert (NF' : ~ In EFail more). { intros X. apply NF. rewrite in_app_iff. right. now right. }
  cbn [qa_run qa_act]. unfold qa_held. rewrite AL, FL. cbn [orb negb]. rewrite andb_true_r.
  destruct (qa_task s) as [| |i|] eqn:T.
  - (* the drop itself released it *) destruct (qa_run s more) as [s3 o3]. cbn [snd]. rewrite !in_app_iff. split; [left|right; right; left; now left].
    assert (G : forall l x, qa_task x = QtNone -> qa_alive x = true -> qa_task (fst (qa_run x l)) = QtNone -> qa_alive (fst (qa_run x l)) = false -> In AReleased (snd (qa_run x l))).
    { clear. induction l as [|e l IH]; intros x T A T' A'; [cbn in A'; congruence|]. cbn [qa_run] in *. destruct (qa_act x e) as [x1 o1] eqn:E. destruct (qa_run x1 l) as [x2 o2] eqn:R. cbn [fst snd] in *. rewrite in_app_iff.
      assert (Z : forall l y, qa_task y <> QtNone -> qa_task (fst (qa_run y l)) <> QtNone).
      { clear. induction l as [|e l IH]; intros y N; [exact N|]. cbn [qa_run]. destruct (qa_act y e) as [y1 o1] eqn:E. specialize (IH y1). destruct (qa_run y1 l) as [y2 o2]. cbn [fst] in *. apply IH.
        destruct y as [bl f t ch al]. cbn [qa_task] in *. destruct e; cbn [qa_act qa_backlog qa_failed qa_task qa_chan qa_alive] in E.
        - destruct (_ && _) in E; injection E as <- _; exact N.
        - injection E as <- _; exact N.
        - destruct t as [| |i|]; [|destruct f; [|destruct bl]|destruct al; [destruct (_ <? _)|]|]; injection E as <- _; cbn; congruence.
        - destruct al; [destruct ch as [|[c|] r]|]; injection E as <- _; cbn; destruct t; congruence.
        - destruct al; [destruct t|]; injection E as <- _; cbn; congruence. }
      specialize (IH x1). rewrite R in IH. cbn [fst snd] in IH.
      destruct x as [bl f t ch al]. cbn [qa_task qa_alive] in T, A. subst t al. destruct e; cbn [qa_act qa_backlog qa_failed qa_task qa_chan qa_alive] in E.
      - destruct (_ && _) in E; injection E as <- <-; right; apply IH; auto.
      - injection E as <- <-; right; apply IH; auto.
      - injection E as <- <-; right; apply IH; auto.
      - exfalso. specialize (Z l x1). rewrite R in Z. cbn [fst] in Z. apply Z; [|exact T']. destruct ch as [|[c|] r]; injection E as <- _; discriminate.
      - left. injection E as _ <-. right. rewrite !in_app_iff. right. right. now left. }
    specialize (G (evs ++ EDrop :: mid) qa_bound eq_refl eq_refl). rewrite R in G. cbn [fst snd] in G. apply G; assumption.
  - destruct (qa_run _ more) as [s3 o3] eqn:R3 in |- *. cbn [snd].
    assert (X : In AReleased o3). { pose proof (acc_release more (mkQa (qa_backlog s ++ [c]) false QtAccepting (qa_chan s) false) eq_refl eq_refl NF') as G. rewrite R3 in G. apply G. right. cbn [qa_task qa_backlog]. split; [reflexivity|]. split; [destruct (qa_backlog s); discriminate|exact ST]. }
    split; [rewrite !in_app_iff; tauto|]. left. rewrite !in_app_iff. right. right.
    pose proof (run_lost more (mkQa (qa_backlog s ++ [c]) false QtAccepting (qa_chan s) false) c eq_refl) as G. rewrite R3 in G. apply G; [|exact X]. left. cbn. rewrite in_app_iff. right. now left.
  - destruct (qa_run _ more) as [s3 o3] eqn:R3 in |- *. cbn [snd].
    assert (X : In AReleased o3). { pose proof (acc_release more (mkQa (qa_backlog s ++ [c]) false (QtSending i) (qa_chan s) false) eq_refl eq_refl NF') as G. rewrite R3 in G. apply G. left. split; [eexists; reflexivity|lia]. }
    split; [rewrite !in_app_iff; tauto|]. left. rewrite !in_app_iff. right. right.
    pose proof (run_lost more (mkQa (qa_backlog s ++ [c]) false (QtSending i) (qa_chan s) false) c eq_refl) as G. rewrite R3 in G. apply G; [|exact X]. left. cbn. rewrite in_app_iff. right. now left.
  - destruct (qa_run s more) as [s3 o3]. cbn [snd]. rewrite !in_app_iff. split; [left|right; right; left; now left].
    assert (G : forall l x, qa_task x <> QtEnded -> qa_task (fst (qa_run x l)) = QtEnded -> In AReleased (snd (qa_run x l))).
    { clear. induction l as [|e l IH]; intros x N T; [contradiction|]. cbn [qa_run] in *. destruct (qa_act x e) as [x1 o1] eqn:E. destruct (qa_run x1 l) as [x2 o2] eqn:R. cbn [fst snd] in *. rewrite in_app_iff.
      specialize (IH x1). rewrite R in IH. cbn [fst snd] in IH.
      destruct x as [bl f t ch al]. cbn [qa_task] in *. destruct e; cbn [qa_act qa_backlog qa_failed qa_task qa_chan qa_alive] in E.
      - right. apply IH; [|exact T]. destruct (_ && _) in E; injection E as <- _; exact N.
      - right. apply IH; [|exact T]. injection E as <- _; exact N.
      - destruct t as [| |i|]; [|destruct f; [|destruct bl]|destruct al; [destruct (_ <? _)|]|]; injection E as <- <-; try (right; apply IH; [cbn; congruence|exact T]). left. rewrite !in_app_iff. right. right. now left.
      - right. apply IH; [|exact T]. destruct al; [destruct ch as [|[c|] r]|]; injection E as <- _; cbn; destruct t; congruence.
      - right. apply IH; [|exact T]. destruct al; [destruct t|]; injection E as <- _; cbn; congruence. }
    specialize (G (evs ++ EDrop :: mid) qa_bound). rewrite R in G. cbn [fst snd] in G. apply G; [discriminate|exact T].
Qed.

(** ** A failed endpoint *)
Lemma act_after_fail s e s' o : qa_act s e = (s', o) -> qa_failed s = true -> ok s ->
  qa_failed s' = true /\ arrived o = [] /\ (length (handed_on o) + length (flat_map iconn (qa_chan s' ++ slot s')) <= length (flat_map iconn (qa_chan s ++ slot s)))%nat.
Proof.
  intros E F (_ & B & _). destruct s as [bl f t ch al]. cbn [qa_failed qa_task qa_chan] in *. subst f. unfold slot.
  destruct e; cbn [qa_act qa_backlog qa_failed qa_task qa_chan qa_alive] in E.
  - rewrite andb_false_r in E. injection E as <- <-. cbn. auto.
  - injection E as <- <-. cbn. auto.
  - destruct t as [| |i|]; [| |destruct al; [destruct (_ <? _)|]|]; injection E as <- <-; cbn [qa_backlog qa_failed qa_task qa_chan qa_alive]; (split; [reflexivity|]);
      rewrite ?arrived_app, ?handed_app; try (destruct (lost_arr2 bl) as [X Y]; rewrite X, Y; destruct i); cbn [arrived handed_on item_lost flat_map app length];
      (split; [reflexivity|]); rewrite ?flat_map_app, ?app_length; cbn [flat_map iconn app length]; rewrite ?app_length; cbn [length]; lia.
  - destruct al; [destruct ch as [|[c|] r]|]; injection E as <- <-; cbn [qa_backlog qa_failed qa_task qa_chan qa_alive]; (split; [reflexivity|]);
      destruct t; cbn [arrived handed_on flat_map iconn app length]; (split; [reflexivity|]); rewrite ?flat_map_app, ?app_length; cbn [flat_map iconn app length]; lia.
  - destruct (lost_arr ch) as [X Y]. destruct (lost_arr2 bl) as [X2 Y2].
    destruct al; [destruct t|]; injection E as <- <-; cbn [qa_backlog qa_failed qa_task qa_chan qa_alive]; (split; [reflexivity|]);
    try match goal with |- arrived (ADropped :: ?x) = [] /\ _ => change (arrived x = [] /\ (length (handed_on x) + length (flat_map iconn ([] ++ [])) <= length (flat_map iconn (ch ++ [])))%nat) || change (arrived x = [] /\ (length (handed_on x) + length (flat_map iconn ([] ++ [i])) <= length (flat_map iconn (ch ++ [i])))%nat) end;
    rewrite ?arrived_app, ?handed_app, ?X, ?Y, ?X2, ?Y2; (split; [reflexivity|]); rewrite ?flat_map_app, ?app_length; cbn [flat_map iconn app length handed_on]; lia.
Qed.

(*@prop Once the endpoint has failed, at most 33 further connections are handed on (those already taken from it); no client can connect any
    more. *)
Lemma C92_after_failure_pf :
  forall evs more,
    let before := snd (qa_run qa_bound evs) in
    let all := snd (qa_run qa_bound (evs ++ EFail :: more)) in
    arrived all = arrived before /\ (length (handed_on all) <= length (handed_on before) + 33)%nat.
Proof.
  intros evs more before all. subst before all. rewrite run_app. destruct (qa_run qa_bound evs) as [s o] eqn:R. cbn [qa_run qa_act].
  destruct (run_ok _ _ _ _ R bound_ok) as [K _].
  assert (K1 : ok (mkQa (qa_backlog s) true (qa_task s) (qa_chan s) (qa_alive s))) by exact K.
  assert (G : forall l x x' ob, qa_run x l = (x', ob) -> qa_failed x = true -> ok x -> arrived ob = [] /\ (length (handed_on ob) <= length (flat_map iconn (qa_chan x ++ slot x)))%nat).
  { clear. induction l as [|e l IH]; intros x x' ob E F K; cbn [qa_run] in E; [injection E as <- <-; cbn; split; [reflexivity|lia]|].
    destruct (qa_act x e) as [x1 o1] eqn:A. destruct (qa_run x1 l) as [x2 o2] eqn:R. injection E as <- <-.
    destruct (act_after_fail _ _ _ _ A F K) as (F1 & a1 & b1). destruct (IH _ _ _ R F1 (proj1 (act_ok _ _ _ _ A K))) as [a2 b2]. rewrite arrived_app, handed_app, app_length, a1, a2. split; [reflexivity|lia]. }
  destruct (qa_run _ more) as [s2 o2] eqn:R2. destruct (G _ _ _ _ R2 eq_refl K1) as [a b]. cbn [snd app]. rewrite arrived_app, handed_app, a, app_nil_r, app_length. split; [reflexivity|].
  assert (L : (length (flat_map iconn (qa_chan s ++ slot s)) <= 33)%nat).
  { destruct K as (_ & _ & K). assert (X : forall l, (length (flat_map iconn l) <= length l)%nat) by (induction l as [|[c|] l IH]; cbn [flat_map iconn app length]; lia).
    specialize (X (qa_chan s ++ slot s)). rewrite app_length in X. assert (Y : (length (slot s) <= 1)%nat) by (unfold slot; destruct (qa_task s); cbn; lia). unfold blen in K. lia. }
  cbn [qa_chan slot qa_task] in b. change (slot (mkQa (qa_backlog s) true (qa_task s) (qa_chan s) (qa_alive s))) with (slot s) in b. lia.
Qed.

(*@example Three clients connect while nobody polls; a fair schedule hands on all three, in order; the fourth client, connecting after the
    drop, is let in, lost, and frees the address. *)
Lemma C92_example_pf :
  let o := snd (qa_run qa_bound [EPoll; EArrive 7; EArrive 8; EStep; EArrive 9; EStep; EStep; EStep; EPoll; EPoll; EStep; EPoll; EStep; EPoll; EPoll;
                                 EDrop; EStep; EArrive 5; EStep; EStep; EArrive 6]) in
  o = [APending; AArrived 7; AArrived 8; AArrived 9; AGave 7; AGave 8; APending; AGave 9; APending;
       ADropped; AArrived 5; ALost 5; AReleased; AUnreachable 6].
Proof. vm_compute. reflexivity. Qed.
(*@example The hypotheses of the theorems are met. *)
Lemma C92_example_fair_pf :
  let more := [EPoll; EStep] ++ [EStep; EPoll] ++ [EStep; EPoll] ++ [EPoll; EStep] ++ [] in
  Forall running more /\ turns 4 more /\
  snd (qa_run qa_bound ([EArrive 7] ++ more)) = [AArrived 7; APending; AGave 7; APending; APending].
Proof.
  split; [|split].
  - repeat constructor; (now left) || (now right).
  - repeat apply turns_more; cbn [In]; tauto || apply turns_end.
  - vm_compute. reflexivity.
Qed.
