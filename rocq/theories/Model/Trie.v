(** The subscription filter, msg-socket/src/pub/trie.rs.

    A Rust `String`/`&str` is its list of UTF-8 bytes.  '.', '*' and '>' are ASCII, so splitting at the
    byte 0x2e is `str::split('.')`, and comparing byte lists is comparing strings. *)
From Verif Require Import Model.Base Model.Map.

Definition DOT : byte := x2e.
Definition STAR : bytes := [x2a].
Definition GT : bytes := [x3e].

(** `topic.split('.')`: always at least one token; tokens may be empty. *)
Fixpoint split_dot (b : bytes) : list bytes :=
  match b with
  | [] => [[]]
  | c :: b' =>
    if eq_dec c DOT then [] :: split_dot b'
    else match split_dot b' with
         | t :: ts => (c :: t) :: ts
         | [] => [[c]]                  (* unreachable *)
         end
  end.

(** struct Node, trie.rs 6-10. *)
Inductive node := Node (children : list (bytes * node)) (catch_all topic_end : bool).

Definition n_children (n : node) := match n with Node c _ _ => c end.
Definition n_catch (n : node) := match n with Node _ c _ => c end.
Definition n_end (n : node) := match n with Node _ _ e => e end.

(** Node::new, trie.rs 13-15; PrefixTrie::new, 29-31. *)
Definition node_new : node := Node [] false false.
Definition trie_new : node := node_new.

(** `children.entry(token).or_insert(Node::new())`, trie.rs 41. *)
Definition child_or_new (n : node) (t : bytes) : node :=
  match mget t (n_children n) with Some c => c | None => node_new end.

(** PrefixTrie::insert, trie.rs 38-49.  The loop descends; [break] at ">" (43-46); the node where it
    stops gets topic_end (48).  Returning the updated root replaces the `&mut` walk. *)
Fixpoint insert_tokens (n : node) (ts : list bytes) : node :=
  match ts with
  | [] => Node (n_children n) (n_catch n) true
  | t :: ts' =>
    let c := child_or_new n t in
    let c' := if eq_dec t GT then Node (n_children c) true true else insert_tokens c ts' in
    Node (mset t c' (n_children n)) (n_catch n) (n_end n)
  end.
Definition trie_insert (n : node) (topic : bytes) : node := insert_tokens n (split_dot topic).

Definition is_empty {A} (l : list A) : bool := match l with [] => true | _ => false end.

(** inner_remove, trie.rs 56-74. *)
Fixpoint remove_tokens (n : node) (ts : list bytes) : node * bool :=
  match ts with
  | [] => if n_end n then (Node (n_children n) (n_catch n) false, is_empty (n_children n))   (* 57-61 *)
          else (n, false)                                                                     (* 62 *)
  | t :: ts' =>
    match mget t (n_children n) with                                                          (* 66 *)
    | Some c =>
      let (c', emptied) := remove_tokens c ts' in                                             (* 67 *)
      if emptied then
        let ch := mdel t (n_children n) in                                                    (* 68 *)
        (Node ch (n_catch n) (n_end n), is_empty ch && negb (n_end n))                        (* 69 *)
      else (Node (mset t c' (n_children n)) (n_catch n) (n_end n), false)
    | None => (n, false)
    end
  end.
(** remove, trie.rs 52-54. *)
Definition trie_remove (n : node) (topic : bytes) : node := fst (remove_tokens n (split_dot topic)).

(** contains, trie.rs 77-89. *)
Fixpoint contains_tokens (n : node) (ts : list bytes) : bool :=
  match ts with
  | [] => n_end n || n_catch n                                   (* 88 *)
  | t :: ts' =>
    match mget t (n_children n) with
    | Some c => contains_tokens c ts'                            (* 80-81 *)
    | None =>
      match mget STAR (n_children n) with
      | Some c => contains_tokens c ts'                          (* 82-83 *)
      | None => n_catch n                                        (* 85 *)
      end
    end
  end.
Definition trie_contains (n : node) (topic : bytes) : bool := contains_tokens n (split_dot topic).

(** The operations a session performs on its filter (pub/session.rs 72-83). *)
Inductive tr_op := TSub (topic : bytes) | TUnsub (topic : bytes).
Definition trie_op (n : node) (o : tr_op) : node :=
  match o with TSub t => trie_insert n t | TUnsub t => trie_remove n t end.
Definition trie_run (ops : list tr_op) : node := fold_left trie_op ops trie_new.
