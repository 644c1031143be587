(** True sum of a list of samples. *)
From Coq Require Import List NArith.
Open Scope N_scope.
Definition total (xs : list N) : N := fold_right N.add 0 xs.
