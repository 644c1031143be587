(** Publisher: written frames stay marked for flushing; a sleeping driver has nothing ready. *)
From Coq Require Import ZArith ZifyBool ZifyNat ZifyN Permutation Sorting.Sorted.
From Verif Require Import Model.Base Model.Map Model.WirePubSub Model.Compression Model.Stats Model.Framed Model.WireAuth
  Model.Handshake Model.Trie Model.Utf8 Model.PubDriver Spec.CompressSpec Spec.PubSpec Proofs.BaseP Proofs.MapP Proofs.PubDriverP Proofs.PubDriverP2 Proofs.PubDriverP3 Proofs.PubDriverP4 Proofs.PubDriverP5.
Local Open Scope N_scope.

Section P.
Variables (max : option N) (buf min : N) (auth : option (bytes -> bool)) (co : option compressor).
Notation act := (pb_act max buf min auth co).
Notation run := (pb_run max buf min auth co).

Lemma iter_flush cid e h c x x' d o r : sn_iter buf cid e h c x = (x', d, o, r) ->
  s_tick e && s_flush_ok e = false -> sn_flush x = true -> sn_flush x' = true.
Proof using.
  unfold sn_iter. intros H F Hx. rewrite <- andb_assoc, F, andb_false_r in H. rewrite Hx in H. revert H.
  cbn [sn_seq sn_pos sn_pending sn_filter sn_flush].
  destruct (s_ready e); [|intros [= <- <- <- <-]; reflexivity].
  destruct (sn_pending x); [destruct (s_send e); intros [= <- <- <- <-]; reflexivity|].
  destruct (bcast_recv _ _ _ _).
  - destruct (nth_error h _); [|intros [= <- <- <- <-]; reflexivity]. destruct (trie_contains _ _); [|intros [= <- <- <- <-]; reflexivity].
    destruct (pub_into_wire _ _ _ _); intros [= <- <- <- <-]; reflexivity.
  - intros [= <- <- <- <-]; reflexivity.
  - destruct (s_next e); intros [= <- <- <- <-]; reflexivity.
  - intros [= <- <- <- <-]; reflexivity.
Qed.
Lemma iter_handed cid e h c x x' d o r c' m : sn_iter buf cid e h c x = (x', d, o, r) -> In (QHanded c' m true) o -> c' = cid /\ sn_flush x' = true /\ r = SCont.
Proof using.
  unfold sn_iter. set (fl := if sn_flush x && s_tick e && s_flush_ok e then false else sn_flush x).
  cbn [sn_seq sn_pos sn_pending sn_filter sn_flush].
  destruct (s_ready e); [|intros [= <- <- <- <-] []].
  destruct (sn_pending x).
  { destruct (s_send e); intros [= <- <- <- <-] [E|[]]; [|discriminate]. injection E as <- <-. auto. }
  assert (K : forall A, In A [QTook cid (sn_pos x)] -> A <> QHanded c' m true) by (intros A [<-|[]]; discriminate).
  destruct (bcast_recv _ _ _ _).
  - destruct (nth_error h _); [|intros [= <- <- <- <-] []]. destruct (trie_contains _ _); [|intros [= <- <- <- <-] Hi; exfalso; exact (K _ Hi eq_refl)].
    destruct (pub_into_wire _ _ _ _); intros [= <- <- <- <-] Hi; exfalso; exact (K _ Hi eq_refl).
  - intros [= <- <- <- <-] [E|[]]; discriminate.
  - destruct (s_next e); intros [= <- <- <- <-]; [intros [E|[]]; discriminate|intros []..].
  - intros [= <- <- <- <-] [].
Qed.

Definition unflushed (cid : N) (s : pb) : Prop :=
  ~ In cid (pb_conns s) /\ ~ In cid (pb_auths s) /\ cid < pb_next_cid s /\ (forall x, mget cid (pb_sess s) = Some x -> sn_flush x = true).

Lemma in_drop {A} k (l : list A) x : In x (firstn k l ++ skipn (S k) l) -> In x l.
Proof using.
  intros H. apply in_app_or in H. destruct H as [H|H]; [|].
  - rewrite <- (firstn_skipn k l). apply in_or_app. auto.
  - rewrite <- (firstn_skipn (S k) l). apply in_or_app. auto.
Qed.

Lemma act_unflushed cid s ev s' o : unflushed cid s -> act s ev = (s', o) ->
  (forall e, ev = WSession cid e -> s_tick e && s_flush_ok e = false) -> unflushed cid s'.
Proof.
  intros (A & B & C & D). destruct ev; cbn [pb_act].
  - intros H Ev. destruct (pb_session buf cid0 e s) as [[s1 o1] r] eqn:E. injection H as <- <-. unfold pb_session in E.
    destruct (mget cid0 (pb_sess s)) as [x|] eqn:G; [|injection E as <- <- <-; repeat split; auto].
    destruct (sn_iter buf cid0 e (pb_hist s) (pb_closed s) x) as [[[x' d] o'] r'] eqn:It.
    assert (Kdel : forall x0, mget cid (mdel cid0 (pb_sess s)) = Some x0 -> sn_flush x0 = true).
    { intros y. destruct (N.eq_dec cid0 cid) as [->|Ne]; [rewrite mget_del_eq; discriminate|rewrite mget_del_ne by auto; apply D]. }
    assert (Kset : forall x0, mget cid (mset cid0 x' (pb_sess s)) = Some x0 -> sn_flush x0 = true).
    { intros y. destruct (N.eq_dec cid0 cid) as [->|Ne]; [rewrite mget_set_eq; intros [= <-]|rewrite mget_set_ne by auto; apply D].
      eapply iter_flush; [exact It|now apply Ev|now apply D]. }
    destruct r'; injection E as <- <- <-; unfold unflushed; cbn [pb_conns pb_auths pb_sess pb_next_cid pb_decr pb_with_active]; auto.
  - intros H _. destruct (pb_auth auth k input send_ok s) as [[s1 o1] r] eqn:E. injection H as <- <-. unfold pb_auth in E.
    destruct (nth_error (pb_auths s) k) as [c|] eqn:G; [|injection E as <- <- <-; repeat split; auto].
    destruct auth as [a|]; [|injection E as <- <- <-; repeat split; auto].
    assert (Ne : c <> cid) by (intros ->; apply B; eapply nth_error_In; eauto).
    assert (Bd : ~ In cid (firstn k (pb_auths s) ++ skipn (S k) (pb_auths s))) by (intros H; now apply in_drop in H).
    destruct (auth_server a send_ok input) as [[[id| | |] w] rest]; injection E as <- <- <-; unfold unflushed;
      cbn [pb_conns pb_auths pb_sess pb_next_cid pb_decr pb_with_active]; repeat split; auto.
    intros x. rewrite mget_set_ne by auto. apply D.
  - intros H _. destruct (pb_conn auth k res s) as [[s1 o1] r] eqn:E. injection H as <- <-. unfold pb_conn in E.
    destruct (nth_error (pb_conns s) k) as [c|] eqn:G; [|injection E as <- <- <-; repeat split; auto].
    assert (Ne : c <> cid) by (intros ->; apply A; eapply nth_error_In; eauto).
    assert (Bd : ~ In cid (firstn k (pb_conns s) ++ skipn (S k) (pb_conns s))) by (intros H; now apply in_drop in H).
    destruct res as [[|]|]; [destruct auth|..]; injection E as <- <- <-; unfold unflushed;
      cbn [pb_conns pb_auths pb_sess pb_next_cid pb_decr pb_with_active]; repeat split; auto.
    + intros H. apply in_app_or in H. destruct H as [H|[H|[]]]; auto.
    + intros x. rewrite mget_set_ne by auto. apply D.
  - intros H _. unfold pb_accept in H. destruct (match max with Some m => _ | None => _ end); injection H as <- <-; unfold unflushed;
      cbn [pb_conns pb_auths pb_sess pb_next_cid pb_incr pb_with_active]; repeat split; auto; [|lia].
    intros H. apply in_app_or in H. destruct H as [H|[H|[]]]; auto. lia.
  - intros H _. unfold pb_send in H. destruct (publish_outgoing _ _ _); [destruct (pb_closed s)|]; injection H as <- <-; repeat split; auto.
  - intros H _. unfold pb_send in H. destruct (try_publish_outgoing _ _ _); [destruct (pb_closed s)|]; injection H as <- <-; repeat split; auto.
  - intros H _. destruct (pb_closed s); injection H as <- <-; repeat split; auto.
Qed.

Lemma run_unflushed cid : forall evs s s' o, unflushed cid s -> run s evs = (s', o) ->
  (exists e, In (WSession cid e) evs /\ s_tick e && s_flush_ok e = true) \/ unflushed cid s'.
Proof.
  induction evs as [|ev evs IH]; intros s s' o U; cbn [pb_run]; [intros [= <- <-]; auto|].
  destruct (act s ev) as [s1 o1] eqn:E. destruct (run s1 evs) as [s2 o2] eqn:R. intros [= <- <-].
  assert (Dec : (exists e, ev = WSession cid e /\ s_tick e && s_flush_ok e = true) \/ (forall e, ev = WSession cid e -> s_tick e && s_flush_ok e = false)).
  { destruct ev; try (right; intros; discriminate). destruct (s_tick e && s_flush_ok e) eqn:F.
    - destruct (N.eq_dec cid0 cid) as [->|Ne]; [left; eauto|right; intros e' [= H _]; contradiction].
    - right. intros e' [= _ <-]. exact F. }
  destruct Dec as [(e & -> & F)|Dec]; [left; exists e; split; [now left|exact F]|].
  destruct (IH s1 s2 o2 (act_unflushed _ _ _ _ _ U E Dec) R) as [(e & Hi & F)|U2]; [left; exists e; split; [now right|exact F]|auto].
Qed.

Lemma handed_unflushed evs s L ev s' o cid m : run pb_init evs = (s, L) -> act s ev = (s', o) -> In (QHanded cid m true) o -> unflushed cid s'.
Proof.
  intros R A Hi. destruct (run_tinv buf max min auth co evs s L R) as [I _].
  destruct ev; cbn [pb_act] in A.
  - destruct (pb_session buf cid0 e s) as [[s1 o1] r] eqn:E. injection A as <- <-. unfold pb_session in E.
    destruct (mget cid0 (pb_sess s)) as [x|] eqn:G; [|injection E as <- <- <-; destruct Hi].
    destruct (sn_iter buf cid0 e (pb_hist s) (pb_closed s) x) as [[[x' d] o'] r'] eqn:It.
    assert (Hi' : In (QHanded cid m true) o').
    { destruct r'; injection E as <- <- <-; auto; apply in_app_or in Hi; destruct Hi as [Hi|[Hi|[]]]; auto; discriminate. }
    destruct (iter_handed _ _ _ _ _ _ _ _ _ _ _ It Hi') as (-> & F & ->). injection E as <- <- <-.
    assert (Kn : In cid0 (mkeys (pb_sess s))). { destruct (in_dec N.eq_dec cid0 (mkeys (pb_sess s))) as [|N0]; [auto|]. apply mget_not_keys in N0. congruence. }
    pose proof (inv1_nodup_conns _ _ I) as Nd. unfold qconns in Nd.
    unfold unflushed. cbn [pb_conns pb_auths pb_sess pb_next_cid]. repeat split.
    + intros Hc. apply In_nth_error in Hc. destruct Hc as [k Hk]. destruct (inv1_conn_new _ _ _ _ I Hk). congruence.
    + intros Hc. apply In_nth_error in Hc. destruct Hc as [k Hk]. destruct (inv1_auth_new _ _ _ _ I Hk). congruence.
    + apply (i1_next _ _ I). apply (Permutation_in _ (Permutation_sym (i1_perm _ _ I))). unfold qconns. rewrite !in_app_iff. auto.
    + intros y. rewrite mget_set_eq. intros [= <-]. exact F.
  - exfalso. destruct (pb_auth auth k input send_ok s) as [[s1 o1] r] eqn:E. injection A as <- <-. unfold pb_auth in E.
    destruct (nth_error (pb_auths s) k) as [c|] eqn:G; [|injection E as <- <- <-; destruct Hi].
    destruct auth as [a|]; [|injection E as <- <- <-; destruct Hi].
    destruct (auth_server a send_ok input) as [[[id| | |] w] rest]; injection E as <- <- <-; cbn [In app] in Hi; intuition discriminate.
  - exfalso. destruct (pb_conn auth k res s) as [[s1 o1] r] eqn:E. injection A as <- <-. unfold pb_conn in E.
    destruct (nth_error (pb_conns s) k) as [c|] eqn:G; [|injection E as <- <- <-; destruct Hi].
    destruct res as [[|]|]; [destruct auth|..]; injection E as <- <- <-; cbn [In app] in Hi; intuition discriminate.
  - exfalso. unfold pb_accept in A. destruct (match max with Some m => _ | None => _ end); injection A as <- <-; cbn [In app] in Hi; intuition discriminate.
  - exfalso. unfold pb_send in A. destruct (publish_outgoing _ _ _); [destruct (pb_closed s)|]; injection A as <- <-; cbn [In app] in Hi; intuition discriminate.
  - exfalso. unfold pb_send in A. destruct (try_publish_outgoing _ _ _); [destruct (pb_closed s)|]; injection A as <- <-; cbn [In app] in Hi; intuition discriminate.
  - exfalso. destruct (pb_closed s); injection A as <- <-; cbn [In app] in Hi; intuition discriminate.
Qed.

(** The driver sleeps only after a pass in which nothing was ready. *)
Lemma iter_sleep d s s' o : pb_iter max auth d s = (s', o, false) ->
  b_accept d = false /\
  (forall k r, b_conn d = Some (k, r) -> nth_error (pb_conns s') k = None) /\
  (forall k i b, b_auth d = Some (k, i, b) -> nth_error (pb_auths s') k = None \/ (exists c, In (QPanicked c) o) \/
     (forall a, auth = Some a -> fst (fst (auth_server a b i)) = AuthRunning)).
Proof using.
  unfold pb_iter.
  destruct (match b_auth d with Some (k, i, b) => pb_auth auth k i b s | None => (s, [], false) end) as [[s1 o1] c1] eqn:E1.
  destruct c1; [discriminate|].
  destruct (match b_conn d with Some (k, r) => pb_conn auth k r s1 | None => (s1, [], false) end) as [[s2 o2] c2] eqn:E2.
  destruct c2; [discriminate|]. destruct (b_accept d); [destruct (pb_accept max s2); discriminate|]. intros [= <- <-].
  assert (E2' : s2 = s1 /\ o2 = [] /\ (forall k r, b_conn d = Some (k, r) -> nth_error (pb_conns s1) k = None)).
  { destruct (b_conn d) as [[k r]|]; [|injection E2 as <- <-; repeat split; intros; discriminate]. unfold pb_conn in E2.
    destruct (nth_error (pb_conns s1) k) as [c|] eqn:G.
    - destruct r as [[|]|]; [destruct auth|..]; discriminate.
    - injection E2 as <- <-. repeat split. intros k' r' [= <- <-]. exact G. }
  destruct E2' as (-> & -> & Hc). split; [reflexivity|]. split; [exact Hc|].
  intros k i b Hb. rewrite Hb in E1. unfold pb_auth in E1.
  destruct (nth_error (pb_auths s) k) as [c|] eqn:G; [|injection E1 as <- <-; left; exact G].
  destruct auth as [a|]; [|right; right; intros; discriminate].
  destruct (auth_server a b i) as [[[id| | |] w] rest] eqn:Au; try discriminate; injection E1 as <- <-.
  - right; left. exists c. now left.
  - right; right. intros a' [= <-]. now rewrite Au.
Qed.
Lemma poll_sleep : forall ds s s' o, pb_poll max auth ds s = (s', o, true) -> exists before d rest, ds = before ++ d :: rest /\
  b_accept d = false /\
  (forall k r, b_conn d = Some (k, r) -> nth_error (pb_conns s') k = None) /\
  (forall k i b, b_auth d = Some (k, i, b) -> nth_error (pb_auths s') k = None \/ (exists c, In (QPanicked c) o) \/
     (forall a, auth = Some a -> fst (fst (auth_server a b i)) = AuthRunning)).
Proof using.
  induction ds as [|d ds IH]; intros s s' o; cbn [pb_poll]; [discriminate|].
  destruct (pb_iter max auth d s) as [[s1 o1] c1] eqn:E. destruct c1.
  - destruct (pb_poll max auth ds s1) as [[s2 o2] r] eqn:P. intros [= <- <- ->].
    destruct (IH _ _ _ P) as (b & d' & rest & -> & A & B & C). exists (d :: b), d', rest. split; [reflexivity|]. split; [exact A|]. split; [exact B|].
    intros k i b' Hb. destruct (C k i b' Hb) as [|[[c Hc]|]]; auto. right; left. exists c. apply in_or_app. auto.
  - intros [= <- <-]. exists [], d, ds. split; [reflexivity|]. exact (iter_sleep _ _ _ _ E).
Qed.
End P.
