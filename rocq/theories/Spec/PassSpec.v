(** Vocabulary for C96: two logs that tell the same story. *)
From Coq Require Import List NArith Permutation.
From Verif Require Import Model.Base Model.Map Model.SubDriver Spec.SubSpec.
Import ListNotations.

(** What is done or reported about the publisher at [a]. *)
Definition concerns (a : addr) (x : uout) : bool :=
  match x with
  | UConnect b | UConnectFailed b | UTaskPanic b | UAlready b | UOpen _ b | UDeliver _ _ b _ _ | UYield _ b _ _ | UReset b | UGaveUp b =>
    if eq_dec b a then true else false
  | _ => false
  end.
(** The same things happen; on each connection, in the same order; to each publisher, in the same order; and the application's messages and
    commands are handled in the same order. *)
Definition same_story (l l' : list uout) : Prop :=
  Permutation l l' /\
  (forall cid, on cid l = on cid l') /\
  (forall a, filter (concerns a) l = filter (concerns a) l') /\
  commands l = commands l' /\
  filter (fun x => match x with UDeliver _ _ _ _ _ => true | _ => false end) l = filter (fun x => match x with UDeliver _ _ _ _ _ => true | _ => false end) l'.
