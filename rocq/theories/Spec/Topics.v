(** Topics, subscriptions and the documented wildcard rules (trie.rs 20-22, 33-37):
    a period-separated string; `*` matches a single token; `>` matches one or more tokens. *)
From Coq Require Import List Init.Byte.
From Verif Require Import Model.Trie.
Import ListNotations.

(** [tokens_of s ts]: joining [ts] with periods gives [s], no token containing a period. *)
Definition dot : byte := x2e.
Fixpoint join (ts : list (list byte)) : list byte :=
  match ts with
  | [] => []
  | [t] => t
  | t :: ts' => t ++ dot :: join ts'
  end.
Definition tokens_of (s : list byte) (ts : list (list byte)) : Prop :=
  ts <> [] /\ join ts = s /\ forall t, In t ts -> ~ In dot t.

Definition star : list byte := [x2a].
Definition gt : list byte := [x3e].

(** [matches pattern topic], on tokens.  As in NATS, `>` is a wildcard only in final position. *)
Inductive matches : list (list byte) -> list (list byte) -> Prop :=
| m_done : matches [] []
| m_lit t p q : matches p q -> matches (t :: p) (t :: q)
| m_star t p q : matches p q -> matches (star :: p) (t :: q)
| m_gt t q : matches [gt] (t :: q).

(** A subscription (or topic) without wildcard tokens. *)
Definition literal (ts : list (list byte)) : Prop := ~ In star ts /\ ~ In gt ts.
(** A subscription in which `>` occurs at most as the last token. *)
Definition gt_only_last (ts : list (list byte)) : Prop := ~ In gt (removelast ts).

(** The subscriptions held after a history of operations: the plain reading of subscribe/unsubscribe. *)
Inductive held : list tr_op -> list byte -> Prop :=
| held_now ops t : held (ops ++ [TSub t]) t
| held_sub ops t t' : held ops t -> held (ops ++ [TSub t']) t
| held_unsub ops t t' : held ops t -> t <> t' -> held (ops ++ [TUnsub t']) t.

(** Every subscribe in the history satisfies [P] (on tokens). *)
Definition subs_all (P : list (list byte) -> Prop) (ops : list tr_op) : Prop :=
  forall t ts, In (TSub t) ops -> tokens_of t ts -> P ts.

(** Does the history subscribe or unsubscribe [t]? *)
Definition mentions (t : list byte) (ops : list tr_op) : Prop := In (TSub t) ops \/ In (TUnsub t) ops.
