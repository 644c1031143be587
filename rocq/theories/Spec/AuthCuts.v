(** Where a received byte stream was cut. *)
From Coq Require Import List NArith Bool.
From Verif Require Import Model.Base Model.Framed.
Import ListNotations.
Open Scope N_scope.

(** Number of bytes present after each read. *)
Fixpoint cuts (sofar : N) (input : list io) : list N :=
  match input with
  | [] => []
  | IoData c :: r => (sofar + blen c) :: cuts (sofar + blen c) r
  | _ :: r => cuts sofar r
  end.

(** The amounts of buffered data, for a token of [k] bytes, at which the server's decoder indexes or
    splits out of bounds. *)
Definition fatal_cut (k n : N) : bool :=
  (n =? 4) || ((5 <=? n) && (k <=? n) && (n <? 5 + k)).
