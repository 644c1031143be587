(** The exponential back-off stream, msg-socket/src/connection/backoff.rs.

    Time is a number of nanoseconds.  A `tokio::time::Sleep` is its deadline; polled at time [now] it
    is ready iff [deadline <= now] (simplification: the millisecond rounding of tokio's timer wheel,
    which only makes it fire later, is not modelled; polling a completed Sleep gives Ready again). *)
From Verif Require Import Model.Base.

(** Largest `std::time::Duration` in nanoseconds (u64 seconds + 999_999_999 ns). *)
Definition DURATION_MAX : N := 2 ^ 64 * 1000000000 - 1.

(** backoff.rs 13-23. *)
Record backoff := mkBackoff {
  bo_count   : N;          (* retry_count: usize *)
  bo_max     : N;          (* max_retries: usize *)
  bo_cur     : N;          (* backoff: Duration *)
  bo_timeout : option N    (* timeout: deadline of the armed Sleep, if any *)
}.

(** ExponentialBackoff::new, backoff.rs 26-28. *)
Definition bo_new (initial max : N) : backoff := mkBackoff 0 max initial None.

(** reset_timeout, backoff.rs 31-33: `sleep(self.backoff)` is armed at the current time. *)
Definition bo_reset (now : N) (b : backoff) : backoff :=
  mkBackoff (bo_count b) (bo_max b) (bo_cur b) (Some (now + bo_cur b)).

(** Result of poll_next: Ready(Some d), Ready(None), Pending, or the overflow panic of
    `Duration *= 2`. *)
Inductive bpoll := BYield (d : N) | BEnd | BPending | BPanic.

(** The body of the loop when a timeout is armed, backoff.rs 48-69. *)
Definition bo_armed (now deadline : N) (b : backoff) : backoff * bpoll :=
  if deadline <=? now then                                     (* 49 *)
    let cur := bo_cur b * 2 in                                 (* 51 *)
    if DURATION_MAX <? cur then (b, BPanic) else
    let b1 := mkBackoff (bo_count b + 1) (bo_max b) cur (bo_timeout b) in  (* 52 *)
    if bo_max b <=? bo_count b1 then (b1, BEnd)                (* 55-57 *)
    else (bo_reset now b1, BYield cur)                         (* 59-65 *)
  else (b, BPending).                                          (* 66-69 *)

(** poll_next, backoff.rs 41-75: the loop runs at most twice, as the second iteration finds the
    timeout armed by the first (70-73). *)
Definition bo_poll (now : N) (b : backoff) : backoff * bpoll :=
  match bo_timeout b with
  | Some d => bo_armed now d b
  | None => let b' := bo_reset now b in bo_armed now (now + bo_cur b) b'
  end.

(** The results of polling at the given times. *)
Fixpoint bo_polls (b : backoff) (times : list N) : list bpoll :=
  match times with
  | [] => []
  | t :: ts => let (b', r) := bo_poll t b in r :: bo_polls b' ts
  end.
