(** Statistics.
    req/stats.rs, sub/stats.rs, rep/stats.rs, pub/stats.rs.  `usize` is 64 bits; arithmetic is that of
    a release build (wrapping); the division panics only for a zero divisor. *)
From Verif Require Import Model.Base.

(** The pair (rtt, rtt_idx) of req/stats.rs 12-14, or (latency, latency_idx) of sub/stats.rs 54-56. *)
Record avg := mkAvg { av_value : N; av_idx : N }.

(** Default. *)
Definition avg0 : avg := mkAvg 0 0.

Definition wrap64 (n : N) : N := n mod 2 ^ 64.

(** update_rtt, req/stats.rs 21-28; update_latency, sub/stats.rs 68-75 (identical).  [None] is the
    division-by-zero panic. *)
Definition avg_update (a : avg) (x : N) : option avg :=
  let idx := av_idx a in                                   (* fetch_add returns the old value *)
  let prev := av_value a in
  let d := wrap64 (idx + 1) in
  if d =? 0 then None
  else Some (mkAvg (wrap64 (x + wrap64 (idx * prev)) / d) (wrap64 (idx + 1))).

(** All updates in order. *)
Fixpoint avg_updates (a : avg) (xs : list N) : option avg :=
  match xs with
  | [] => Some a
  | x :: xs' => match avg_update a x with Some a' => avg_updates a' xs' | None => None end
  end.
