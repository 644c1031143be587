(** Vocabulary for stating what a back-off stream does, in terms of the polls made and their results. *)
From Coq Require Import List NArith.
From Verif Require Import Model.Backoff.
Import ListNotations.
Open Scope N_scope.

(** Was the result something other than "not yet"? *)
Definition is_ready (r : bpoll) : bool := match r with BPending => false | _ => true end.

(** A trace is the list of polls: (time, result).  How many polls were ready so far. *)
Definition ready_count (tr : list (N * bpoll)) : N :=
  N.of_nat (length (filter (fun p => is_ready (snd p)) tr)).

(** When the wait that is running after [tr] began: at the last ready poll, or, if none was ready
    yet, at the very first poll ([t] if the trace is empty). *)
Definition last_ready (start : N) (tr : list (N * bpoll)) : N :=
  fold_left (fun acc p => if is_ready (snd p) then fst p else acc) tr start.
Definition wait_began (t : N) (tr : list (N * bpoll)) : N :=
  last_ready (match tr with [] => t | (u, _) :: _ => u end) tr.


(** The longest [std::time::Duration]: a 64-bit number of seconds and almost one more, in nanoseconds. *)
Definition longest : N := (2 ^ 64 - 1) * 1000000000 + 999999999.
