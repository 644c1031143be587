(** GENERATED by tools/gen_props.py from Proofs/T_Trie.v: statements only. *)

(** The subscription filter: C28 .. C32. *)
From Coq Require Import List Init.Byte.
From Verif Require Import Model.Trie Spec.Topics.
Import ListNotations.
From Verif Require Import Proofs.T_Trie.

(** C28: with wildcard-free subscriptions (unsubscriptions may be anything), a published topic is forwarded iff
    that very topic is currently subscribed. *)
Theorem C28_literal_subscriptions_are_a_set :
  forall (ops : list tr_op) (topic : list byte),
  subs_all literal ops ->
  (trie_contains (trie_run ops) topic = true <-> held ops topic).
Proof. exact C28_literal_subscriptions_are_a_set_pf. Qed.
Print Assumptions C28_literal_subscriptions_are_a_set.

Example C28_example :
  let a := [x61] in let ab := [x61; x2e; x62] in
  let ops := [TSub ab; TSub a; TUnsub ab] in
  subs_all literal ops /\ trie_contains (trie_run ops) a = true /\ trie_contains (trie_run ops) ab = false.
Proof. exact C28_example_pf. Qed.

(** C29: with arbitrary subscriptions whose `>` (if any) is in final position, a forwarded topic matches, under the
    documented wildcard rules, a subscription that is currently held. *)
Theorem C29_no_forward_without_match :
  forall (ops : list tr_op) (topic : list byte) (tt : list (list byte)),
  subs_all gt_only_last ops -> tokens_of topic tt ->
  trie_contains (trie_run ops) topic = true ->
  exists s ss, held ops s /\ tokens_of s ss /\ matches ss tt.
Proof. exact C29_no_forward_without_match_pf. Qed.
Print Assumptions C29_no_forward_without_match.

(** C29 without the restriction on `>` is violated: subscribe "a.>.b", unsubscribe it: nothing is held, yet "a.>.c"
    is forwarded. *)
Theorem C29_gt_inside_refuted :
  exists ops topic, trie_contains (trie_run ops) topic = true /\ forall s, ~ held ops s.
Proof. exact C29_gt_inside_refuted_pf. Qed.
Print Assumptions C29_gt_inside_refuted.

Example C29_example :
  let ops := [TSub [x61; x2e; x2a]; TSub [x62; x2e; x3e]] in   (* a.*  and  b.> *)
  subs_all gt_only_last ops /\ trie_contains (trie_run ops) [x61; x2e; x7a] = true.
Proof. exact C29_example_pf. Qed.

(** C30 is violated: holding "a.*.c" and "a.b.d", the topic "a.b.c" matches the former but is not forwarded, because
    the exact token b of the latter shadows the wildcard. *)
Theorem C30_star_complete_refuted :
  exists ops topic tt s ss,
    subs_all (fun ts => ~ In gt ts) ops /\ held ops s /\ tokens_of s ss /\ tokens_of topic tt /\ matches ss tt /\
    trie_contains (trie_run ops) topic = false.
Proof. exact C30_star_complete_refuted_pf. Qed.
Print Assumptions C30_star_complete_refuted.

(** C30, what holds: a topic that matches a held subscription of literals and `*` is forwarded unless, at the position
    of some `*`, another held subscription continues the same prefix with the topic's own token there.  (Unconditionally
    forwarding is missing: see C30_star_complete_refuted.) *)
Theorem C30_star_complete_unless_shadowed_partial :
  forall (ops : list tr_op) (s topic : list byte) (ss tt : list (list byte)),
  subs_all gt_only_last ops -> held ops s -> tokens_of s ss -> tokens_of topic tt -> ~ In gt ss -> matches ss tt ->
  (forall i t, nth_error ss i = Some star -> nth_error tt i = Some t -> t <> star ->
     forall s' ss', held ops s' -> tokens_of s' ss' -> firstn (S i) ss' <> firstn i ss ++ [t]) ->
  trie_contains (trie_run ops) topic = true.
Proof. exact C30_star_complete_unless_shadowed_partial_pf. Qed.
Print Assumptions C30_star_complete_unless_shadowed_partial.

(** C30, special case: a topic that is itself subscribed literally is always forwarded, whatever wildcards and other
    subscriptions are held. *)
Theorem C30_exact_topic_always_forwarded :
  forall (ops : list tr_op) (topic : list byte) (tt : list (list byte)),
  subs_all gt_only_last ops -> tokens_of topic tt -> ~ In gt tt -> held ops topic ->
  trie_contains (trie_run ops) topic = true.
Proof. exact C30_exact_topic_always_forwarded_pf. Qed.
Print Assumptions C30_exact_topic_always_forwarded.

Example C30_example :
  let s := [x61; x2e; x2a; x2e; x63] in let ops := [TSub s; TSub [x61; x2e; x78; x2e; x64]] in
  held ops s /\ matches (split_dot s) (split_dot [x61; x2e; x62; x2e; x63]) /\
  trie_contains (trie_run ops) [x61; x2e; x62; x2e; x63] = true.
Proof. exact C30_example_pf. Qed.

(** C31 is violated for every literal prefix and every topic: with the only subscription p.> (p = any literal tokens) a
    topic p.x... is NOT forwarded unless x is literally ">". *)
Theorem C31_gt_wildcard_refuted :
  forall (p rest : list (list byte)) (x s topic : list byte),
  literal p -> tokens_of s (p ++ [gt]) -> tokens_of topic (p ++ x :: rest) -> x <> gt ->
  matches (p ++ [gt]) (p ++ x :: rest) /\
  trie_contains (trie_run [TSub s]) topic = false.
Proof. exact C31_gt_wildcard_refuted_pf. Qed.
Print Assumptions C31_gt_wildcard_refuted.

(** C31, what holds: exactly the topics p.>... (a literal ">" token in that place) are forwarded. *)
Theorem C31_gt_exact_behaviour_partial :
  forall (p tt : list (list byte)) (s topic : list byte),
  literal p -> tokens_of s (p ++ [gt]) -> tokens_of topic tt ->
  (trie_contains (trie_run [TSub s]) topic = true <-> exists r, tt = p ++ gt :: r).
Proof. exact C31_gt_exact_behaviour_partial_pf. Qed.
Print Assumptions C31_gt_exact_behaviour_partial.

Example C31_example :
  let foo := [x66; x6f; x6f] in
  literal [foo] /\ tokens_of (foo ++ [x2e; x3e]) ([foo] ++ [gt]) /\
  tokens_of (foo ++ [x2e; x62]) ([foo] ++ [[x62]]) /\ trie_contains (trie_run [TSub (foo ++ [x2e; x3e])]) (foo ++ [x2e; x62]) = false.
Proof. exact C31_example_pf. Qed.

(** C32: forwarding depends only on the set of held subscriptions, not on how it came about. *)
Theorem C32_only_held_set_matters :
  forall (ops1 ops2 : list tr_op) (topic : list byte),
  subs_all gt_only_last ops1 -> subs_all gt_only_last ops2 ->
  (forall s, held ops1 s <-> held ops2 s) ->
  trie_contains (trie_run ops1) topic = trie_contains (trie_run ops2) topic.
Proof. exact C32_only_held_set_matters_pf. Qed.
Print Assumptions C32_only_held_set_matters.

(** C32: subscribing t and later unsubscribing the same string leaves forwarding of every topic exactly as if t had never
    been subscribed, whatever else is subscribed or unsubscribed before and in between. *)
Theorem C32_unsubscribe_undoes_subscribe :
  forall (before between : list tr_op) (t topic : list byte),
  let with_t := before ++ [TSub t] ++ between ++ [TUnsub t] in
  subs_all gt_only_last with_t -> ~ mentions t before -> ~ mentions t between ->
  trie_contains (trie_run with_t) topic = trie_contains (trie_run (before ++ between)) topic.
Proof. exact C32_unsubscribe_undoes_subscribe_pf. Qed.
Print Assumptions C32_unsubscribe_undoes_subscribe.

(** C32: once nothing is held any more, the filter is the empty one: no nodes are left behind. *)
Theorem C32_no_nodes_left :
  forall ops : list tr_op,
  subs_all gt_only_last ops -> (forall s, ~ held ops s) -> trie_run ops = trie_new.
Proof. exact C32_no_nodes_left_pf. Qed.
Print Assumptions C32_no_nodes_left.

(** C32 is violated for a `>` that is not the last token: after subscribe and unsubscribe of "a.>.b" the filter still
    forwards "a.>.c", which a fresh filter does not. *)
Theorem C32_gt_inside_refuted :
  exists t topic,
    trie_contains (trie_run [TSub t; TUnsub t]) topic = true /\ trie_contains trie_new topic = false /\
    trie_run [TSub t; TUnsub t] <> trie_new.
Proof. exact C32_gt_inside_refuted_pf. Qed.
Print Assumptions C32_gt_inside_refuted.

Example C32_example :
  let t := [x61; x2e; x2a] in let before := [TSub [x61; x2e; x62]] in let between := [TSub [x61]; TUnsub [x7a]] in
  subs_all gt_only_last (before ++ [TSub t] ++ between ++ [TUnsub t]) /\ ~ mentions t before /\ ~ mentions t between /\
  trie_contains (trie_run (before ++ [TSub t] ++ between)) [x61; x2e; x7a] = true /\
  trie_contains (trie_run (before ++ [TSub t] ++ between ++ [TUnsub t])) [x61; x2e; x7a] = false.
Proof. exact C32_example_pf. Qed.

