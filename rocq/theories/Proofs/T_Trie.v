(** The subscription filter: C28 .. C32. *)
From Coq Require Import List Init.Byte.
From Verif Require Import Model.Trie Spec.Topics.
Import ListNotations.
(*HEADEND*)
From Verif Require Import Model.Base Model.Map Proofs.MapP Proofs.TrieP.
Local Open Scope nat_scope.

Lemma subs_impl (P Q : list (list byte) -> Prop) ops : (forall ts, P ts -> Q ts) -> subs_all P ops -> subs_all Q ops.
Proof. intros H S t ts Hi Ht. apply H. eapply S; eauto. Qed.

Lemma contains_paths ops q : contains_tokens (trie_run ops) q = true ->
  exists p, paths ops p /\ matches p q.
Proof.
  destruct (run_ok ops) as (L & C & E). intros H.
  destruct (contains_sound q false _ C H) as [[X _]|(p & [[M Hp]|(m & Hn & Hca & Hp & M)])]; [discriminate|..].
  - exists p. split; [apply E, Hp|exact M].
  - exists p. split; [|exact M]. apply E.
    destruct (C p m Hn) as [K1 K2]. rewrite Hca in K1. specialize (K2 (eq_sym K1)).
    destruct (L p m Hp Hn) as (r & Hr). destruct r as [|t r].
    + apply ends_nil in Hr. exists m. auto.
    + apply ends_cons in Hr. rewrite K2 in Hr. destruct Hr as (c & Hc & _). discriminate.
Qed.

Lemma sound_held ops topic : subs_all gt_only_last ops -> trie_contains (trie_run ops) topic = true ->
  exists s, held ops s /\ matches (split_dot s) (split_dot topic).
Proof.
  intros Hs H. destruct (contains_paths _ _ H) as (p & Hp & M).
  destruct (paths_is_split ops Hs p Hp) as (s & ->). exists s. split; [apply paths_held; assumption|exact M].
Qed.

Lemma matches_literal p q : literal p -> matches p q -> p = q.
Proof.
  intros [H1 H2] M. induction M as [|t p q M IH|t p q M IH|t q].
  - reflexivity.
  - f_equal. apply IH; intros X; [apply H1|apply H2]; right; exact X.
  - exfalso. apply H1. left; reflexivity.
  - exfalso. apply H2. left; reflexivity.
Qed.

Lemma held_sub_in ops t : held ops t -> In (TSub t) ops.
Proof. intros H. induction H as [ops t|ops t t' H IH|ops t t' H IH Ne]; apply in_or_app; [right; left; reflexivity|left; exact IH..]. Qed.

(*@prop C28: with wildcard-free subscriptions (unsubscriptions may be anything), a published topic is forwarded iff
    that very topic is currently subscribed. *)
Lemma C28_literal_subscriptions_are_a_set_pf :
  forall (ops : list tr_op) (topic : list byte),
  subs_all literal ops ->
  (trie_contains (trie_run ops) topic = true <-> held ops topic).
Proof.
  intros ops topic Hs. pose proof (subs_impl _ gt_only_last ops literal_gt Hs) as Hg. split.
  - intros H. destruct (sound_held ops topic Hg H) as (s & Hh & M).
    apply matches_literal in M; [|apply (Hs s); [apply held_sub_in, Hh|apply tokens_split; reflexivity]].
    apply split_inj in M. subst. exact Hh.
  - intros H. destruct (run_ok ops) as (L & C & E).
    assert (Hlit : literal (split_dot topic)).
    { apply (Hs topic); [apply held_sub_in, H|apply tokens_split; reflexivity]. }
    apply (contains_follow (split_dot topic)); auto.
    + clear. induction (split_dot topic); constructor; assumption.
    + apply E, paths_held; assumption.
    + apply Hlit.
Qed.

(*@example *)
Lemma C28_example_pf :
  let a := [x61] in let ab := [x61; x2e; x62] in
  let ops := [TSub ab; TSub a; TUnsub ab] in
  subs_all literal ops /\ trie_contains (trie_run ops) a = true /\ trie_contains (trie_run ops) ab = false.
Proof.
  cbn zeta. split; [|split; reflexivity].
  intros t ts H Ht. apply tokens_split in Ht. subst ts.
  cbn in H. destruct H as [H|[H|[H|[]]]]; inversion H; subst; cbn; split; intros [X|X]; try discriminate X;
    repeat destruct X as [X|X]; try discriminate X; try destruct X.
Qed.

(*@prop C29: with arbitrary subscriptions whose `>` (if any) is in final position, a forwarded topic matches, under the
    documented wildcard rules, a subscription that is currently held. *)
Lemma C29_no_forward_without_match_pf :
  forall (ops : list tr_op) (topic : list byte) (tt : list (list byte)),
  subs_all gt_only_last ops -> tokens_of topic tt ->
  trie_contains (trie_run ops) topic = true ->
  exists s ss, held ops s /\ tokens_of s ss /\ matches ss tt.
Proof.
  intros ops topic tt Hs Ht H. apply tokens_split in Ht. subst tt.
  destruct (sound_held ops topic Hs H) as (s & Hh & M). exists s, (split_dot s).
  split; [exact Hh|]. split; [apply tokens_split; reflexivity|exact M].
Qed.

(*@prop C29 without the restriction on `>` is violated: subscribe "a.>.b", unsubscribe it: nothing is held, yet "a.>.c"
    is forwarded. *)
Lemma C29_gt_inside_refuted_pf :
  exists ops topic, trie_contains (trie_run ops) topic = true /\ forall s, ~ held ops s.
Proof.
  set (t := [x61; x2e; x3e; x2e; x62]). exists [TSub t; TUnsub t], [x61; x2e; x3e; x2e; x63].
  split; [reflexivity|]. intros s H. change [TSub t; TUnsub t] with ([TSub t] ++ [TUnsub t]) in H.
  apply held_inv_unsub in H. destruct H as [H Ne]. change [TSub t] with ([] ++ [TSub t]) in H.
  apply held_inv_sub in H. destruct H as [H|H]; [exact (held_nil _ H)|contradiction].
Qed.

(*@example *)
Lemma C29_example_pf :
  let ops := [TSub [x61; x2e; x2a]; TSub [x62; x2e; x3e]] in   (* a.*  and  b.> *)
  subs_all gt_only_last ops /\ trie_contains (trie_run ops) [x61; x2e; x7a] = true.
Proof.
  cbn zeta. split; [|reflexivity]. intros t ts H Ht. apply tokens_split in Ht. subst ts.
  cbn in H. destruct H as [H|[H|[]]]; inversion H; subst; cbn; intros [X|X]; try discriminate X; destruct X.
Qed.

(*@prop C30 is violated: holding "a.*.c" and "a.b.d", the topic "a.b.c" matches the former but is not forwarded, because
    the exact token b of the latter shadows the wildcard. *)
Lemma C30_star_complete_refuted_pf :
  exists ops topic tt s ss,
    subs_all (fun ts => ~ In gt ts) ops /\ held ops s /\ tokens_of s ss /\ tokens_of topic tt /\ matches ss tt /\
    trie_contains (trie_run ops) topic = false.
Proof.
  set (s := [x61; x2e; x2a; x2e; x63]). set (s2 := [x61; x2e; x62; x2e; x64]). set (topic := [x61; x2e; x62; x2e; x63]).
  exists [TSub s; TSub s2], topic, (split_dot topic), s, (split_dot s). split; [|split; [|split; [|split; [|split]]]].
  - intros t ts H Ht. apply tokens_split in Ht. subst ts. cbn in H.
    destruct H as [H|[H|[]]]; inversion H; subst t; cbn; intros X; repeat (destruct X as [X|X]; [discriminate X|]); exact X.
  - apply (held_sub [TSub s]). apply (held_now []).
  - apply tokens_split; reflexivity.
  - apply tokens_split; reflexivity.
  - cbn. apply m_lit, (m_star [x62]), m_lit, m_done.
  - reflexivity.
Qed.

(*@prop C30, what holds: a topic that matches a held subscription of literals and `*` is forwarded unless, at the position
    of some `*`, another held subscription continues the same prefix with the topic's own token there.  (Unconditionally
    forwarding is missing: see C30_star_complete_refuted.) *)
Lemma C30_star_complete_unless_shadowed_partial_pf :
  forall (ops : list tr_op) (s topic : list byte) (ss tt : list (list byte)),
  subs_all gt_only_last ops -> held ops s -> tokens_of s ss -> tokens_of topic tt -> ~ In gt ss -> matches ss tt ->
  (forall i t, nth_error ss i = Some star -> nth_error tt i = Some t -> t <> star ->
     forall s' ss', held ops s' -> tokens_of s' ss' -> firstn (S i) ss' <> firstn i ss ++ [t]) ->
  trie_contains (trie_run ops) topic = true.
Proof.
  intros ops s topic ss tt Hs Hh Hss Htt Hgt M Hsh. apply tokens_split in Hss, Htt. subst ss tt.
  destruct (run_ok ops) as (L & C & E). unfold trie_contains.
  apply (contains_follow (split_dot s)); auto.
  - apply E, paths_held; assumption.
  - intros i Hi Hne t r Ht Hend. apply E in Hend.
    destruct (paths_is_split ops Hs _ Hend) as (s' & Es').
    assert (Hi' : i < length (split_dot s)) by (apply nth_error_Some; rewrite Hi; discriminate).
    apply (Hsh i t Hi Ht) with (s' := s') (ss' := split_dot s').
    + intros ->. apply Hne. exact Ht.
    + apply paths_held; [assumption|]. rewrite <- Es'. exact Hend.
    + apply tokens_split; reflexivity.
    + rewrite <- Es'. rewrite firstn_app, firstn_firstn, firstn_length.
      replace (Nat.min (S i) i) with i by lia. replace (S i - Nat.min i (length (split_dot s))) with 1 by lia. reflexivity.
Qed.

(*@prop C30, special case: a topic that is itself subscribed literally is always forwarded, whatever wildcards and other
    subscriptions are held. *)
Lemma C30_exact_topic_always_forwarded_pf :
  forall (ops : list tr_op) (topic : list byte) (tt : list (list byte)),
  subs_all gt_only_last ops -> tokens_of topic tt -> ~ In gt tt -> held ops topic ->
  trie_contains (trie_run ops) topic = true.
Proof.
  intros ops topic tt Hs Ht Hgt Hh. apply tokens_split in Ht. subst tt.
  destruct (run_ok ops) as (L & C & E). unfold trie_contains. apply (contains_follow (split_dot topic)); auto.
  - clear. induction (split_dot topic); constructor; assumption.
  - apply E, paths_held; assumption.
Qed.

(*@example *)
Lemma C30_example_pf :
  let s := [x61; x2e; x2a; x2e; x63] in let ops := [TSub s; TSub [x61; x2e; x78; x2e; x64]] in
  held ops s /\ matches (split_dot s) (split_dot [x61; x2e; x62; x2e; x63]) /\
  trie_contains (trie_run ops) [x61; x2e; x62; x2e; x63] = true.
Proof.
  cbn zeta. split; [apply (held_sub [_]); apply (held_now [])|]. split; [|reflexivity].
  cbn. apply m_lit, (m_star [x62]), m_lit, m_done.
Qed.

(** One `>` subscription. *)
Lemma gt_walk p q : ~ In GT p -> ~ In STAR p ->
  contains_tokens (insert_tokens node_new (p ++ [GT])) q = true <-> exists r, q = p ++ GT :: r.
Proof.
  revert q. induction p as [|t p IH]; intros q H1 H2.
  - cbn [app insert_tokens]. destruct (eq_dec GT GT) as [_|]; [|congruence]. cbn [child_or_new n_children node_new mget].
    destruct q as [|u q]; cbn [contains_tokens n_children mset mget n_end n_catch].
    { split; [discriminate|]. intros (r & X); discriminate. }
    destruct (eq_dec u GT) as [->|Ne].
    + split; [intros _; exists q; reflexivity|]. intros _. destruct q; reflexivity.
    + cbn. destruct (eq_dec STAR GT) as [X|_]; [discriminate X|]. split; [discriminate|]. intros (r & X). inversion X; congruence.
  - cbn [app insert_tokens]. destruct (eq_dec t GT) as [->|Ne]; [exfalso; apply H1; left; reflexivity|].
    cbn [child_or_new n_children node_new mget mset]. 
    assert (H1' : ~ In GT p) by (intros X; apply H1; right; exact X).
    assert (H2' : ~ In STAR p) by (intros X; apply H2; right; exact X).
    destruct q as [|u q]; cbn [contains_tokens n_children mget n_end n_catch].
    { split; [discriminate|]. intros (r & X); discriminate. }
    destruct (eq_dec u t) as [->|Nu].
    + change (Node [] false false) with node_new. rewrite IH by assumption. split; intros (r & X); exists r; [congruence|inversion X; reflexivity].
    + destruct (eq_dec STAR t) as [<-|_]; [exfalso; apply H2; left; reflexivity|].
      split; [discriminate|]. intros (r & X). inversion X; congruence.
Qed.

(*@prop C31 is violated for every literal prefix and every topic: with the only subscription p.> (p = any literal tokens) a
    topic p.x... is NOT forwarded unless x is literally ">". *)
Lemma C31_gt_wildcard_refuted_pf :
  forall (p rest : list (list byte)) (x s topic : list byte),
  literal p -> tokens_of s (p ++ [gt]) -> tokens_of topic (p ++ x :: rest) -> x <> gt ->
  matches (p ++ [gt]) (p ++ x :: rest) /\
  trie_contains (trie_run [TSub s]) topic = false.
Proof.
  intros p rest x s topic [Hl1 Hl2] Hs Ht Hx. split.
  { clear. induction p as [|t p IH]; [apply m_gt|apply m_lit, IH]. }
  apply tokens_split in Hs, Ht.
  destruct (trie_contains (trie_run [TSub s]) topic) eqn:E; [|reflexivity].
  unfold trie_contains, trie_run in E. cbn [fold_left trie_op] in E. unfold trie_insert in E. rewrite Hs, Ht in E.
  apply gt_walk in E; [|assumption..]. destruct E as (r & E). apply app_inv_head in E. inversion E as [[X Y]]. destruct (Hx X).
Qed.

(*@prop C31, what holds: exactly the topics p.>... (a literal ">" token in that place) are forwarded. *)
Lemma C31_gt_exact_behaviour_partial_pf :
  forall (p tt : list (list byte)) (s topic : list byte),
  literal p -> tokens_of s (p ++ [gt]) -> tokens_of topic tt ->
  (trie_contains (trie_run [TSub s]) topic = true <-> exists r, tt = p ++ gt :: r).
Proof.
  intros p tt s topic [Hl1 Hl2] Hs Ht. apply tokens_split in Hs, Ht. subst tt.
  unfold trie_contains, trie_run. cbn [fold_left trie_op]. unfold trie_insert. rewrite Hs. apply gt_walk; assumption.
Qed.

(*@example *)
Lemma C31_example_pf :
  let foo := [x66; x6f; x6f] in
  literal [foo] /\ tokens_of (foo ++ [x2e; x3e]) ([foo] ++ [gt]) /\
  tokens_of (foo ++ [x2e; x62]) ([foo] ++ [[x62]]) /\ trie_contains (trie_run [TSub (foo ++ [x2e; x3e])]) (foo ++ [x2e; x62]) = false.
Proof.
  cbn zeta. split; [split; intros [X|[]]; discriminate X|]. split; [apply tokens_split; reflexivity|].
  split; [apply tokens_split; reflexivity|reflexivity].
Qed.

Lemma same_paths ops1 ops2 topic : (forall p, paths ops1 p <-> paths ops2 p) ->
  trie_contains (trie_run ops1) topic = trie_contains (trie_run ops2) topic.
Proof.
  intros H. destruct (run_ok ops1) as (L1 & C1 & E1), (run_ok ops2) as (L2 & C2 & E2).
  apply (contains_ext _ false); auto. intros p. rewrite E1, E2. apply H.
Qed.

(*@prop C32: forwarding depends only on the set of held subscriptions, not on how it came about. *)
Lemma C32_only_held_set_matters_pf :
  forall (ops1 ops2 : list tr_op) (topic : list byte),
  subs_all gt_only_last ops1 -> subs_all gt_only_last ops2 ->
  (forall s, held ops1 s <-> held ops2 s) ->
  trie_contains (trie_run ops1) topic = trie_contains (trie_run ops2) topic.
Proof.
  intros ops1 ops2 topic H1 H2 H. apply same_paths. intros p. split; intros Hp.
  - destruct (paths_is_split _ H1 _ Hp) as (s & ->). apply paths_held; [assumption|]. apply H, paths_held; assumption.
  - destruct (paths_is_split _ H2 _ Hp) as (s & ->). apply paths_held; [assumption|]. apply H, paths_held; assumption.
Qed.

Lemma held_app_ext a b t : forall c, (forall s, s <> t -> held a s <-> held b s) -> ~ mentions t c ->
  forall s, s <> t -> held (a ++ c) s <-> held (b ++ c) s.
Proof.
  intros c H. induction c as [|o c IH] using rev_ind; intros Hm s Hs.
  - rewrite !app_nil_r. auto.
  - rewrite !app_assoc. assert (Hm' : ~ mentions t c).
    { intros [X|X]; apply Hm; [left|right]; apply in_or_app; left; exact X. }
    specialize (IH Hm'). destruct o as [u|u].
    + rewrite !held_inv_sub, (IH s Hs). reflexivity.
    + rewrite !held_inv_unsub, (IH s Hs). reflexivity.
Qed.

Lemma not_held t ops : ~ In (TSub t) ops -> ~ held ops t.
Proof. intros H X. apply H, held_sub_in, X. Qed.

(*@prop C32: subscribing t and later unsubscribing the same string leaves forwarding of every topic exactly as if t had never
    been subscribed, whatever else is subscribed or unsubscribed before and in between. *)
Lemma C32_unsubscribe_undoes_subscribe_pf :
  forall (before between : list tr_op) (t topic : list byte),
  let with_t := before ++ [TSub t] ++ between ++ [TUnsub t] in
  subs_all gt_only_last with_t -> ~ mentions t before -> ~ mentions t between ->
  trie_contains (trie_run with_t) topic = trie_contains (trie_run (before ++ between)) topic.
Proof.
  intros before between t topic with_t Hs Hb Hc. apply C32_only_held_set_matters_pf; [exact Hs|..].
  - intros u us Hu Hus. apply (Hs u us); [|exact Hus]. unfold with_t. rewrite !in_app_iff in *. tauto.
  - intros s. unfold with_t. rewrite !app_assoc, held_inv_unsub. rewrite <- app_assoc.
    assert (N : ~ held (before ++ between) t).
    { apply not_held. rewrite in_app_iff. unfold mentions in *. tauto. }
    destruct (list_eq_dec Byte.byte_eq_dec s t) as [->|Ne]; [tauto|].
    rewrite app_assoc. rewrite (held_app_ext (before ++ [TSub t]) before t between).
    + tauto.
    + intros s' Hs'. rewrite held_inv_sub. tauto.
    + assumption.
    + assumption.
Qed.

(*@prop C32: once nothing is held any more, the filter is the empty one: no nodes are left behind. *)
Lemma C32_no_nodes_left_pf :
  forall ops : list tr_op,
  subs_all gt_only_last ops -> (forall s, ~ held ops s) -> trie_run ops = trie_new.
Proof.
  intros ops Hs Hn. destruct (run_ok ops) as (L & C & E).
  assert (He : forall p, ~ ends (trie_run ops) p).
  { intros p Hp. apply E in Hp. destruct (paths_is_split _ Hs _ Hp) as (s & ->). apply (Hn s). apply paths_held; assumption. }
  destruct (catch_root _ _ C) as [K _].
  destruct (trie_run ops) as [ch ca en]; cbn in *. subst ca. unfold trie_new, node_new. f_equal.
  - apply mget_none_all. intros k. destruct (mget k ch) as [c|] eqn:G; [|reflexivity].
    exfalso. destruct (live_child _ k c L G) as (_ & q & Hq). apply (He (k :: q)). apply ends_cons. eauto.
  - destruct en; [|reflexivity]. exfalso. apply (He []). apply ends_nil. reflexivity.
Qed.

(*@prop C32 is violated for a `>` that is not the last token: after subscribe and unsubscribe of "a.>.b" the filter still
    forwards "a.>.c", which a fresh filter does not. *)
Lemma C32_gt_inside_refuted_pf :
  exists t topic,
    trie_contains (trie_run [TSub t; TUnsub t]) topic = true /\ trie_contains trie_new topic = false /\
    trie_run [TSub t; TUnsub t] <> trie_new.
Proof.
  exists [x61; x2e; x3e; x2e; x62], [x61; x2e; x3e; x2e; x63]. repeat split; try reflexivity. discriminate.
Qed.

(*@example *)
Lemma C32_example_pf :
  let t := [x61; x2e; x2a] in let before := [TSub [x61; x2e; x62]] in let between := [TSub [x61]; TUnsub [x7a]] in
  subs_all gt_only_last (before ++ [TSub t] ++ between ++ [TUnsub t]) /\ ~ mentions t before /\ ~ mentions t between /\
  trie_contains (trie_run (before ++ [TSub t] ++ between)) [x61; x2e; x7a] = true /\
  trie_contains (trie_run (before ++ [TSub t] ++ between ++ [TUnsub t])) [x61; x2e; x7a] = false.
Proof.
  cbn zeta. split; [|split; [|split; [|split; reflexivity]]].
  - intros t ts H Ht. apply tokens_split in Ht. subst ts. cbn in H.
    repeat (destruct H as [H|H]; [inversion H; subst; cbn; intros X;
      repeat (destruct X as [X|X]; [discriminate X|]); exact X|]). destruct H.
  - intros [[X|[]]|[X|[]]]; discriminate X.
  - intros [[X|[X|[]]]|[X|[X|[]]]]; discriminate X.
Qed.
