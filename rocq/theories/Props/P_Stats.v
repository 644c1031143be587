(** GENERATED by tools/gen_props.py from Proofs/T_Stats.v: statements only. *)

(** Back-off and running averages: C17, C19, C20. *)
From Coq Require Import List NArith.
From Verif Require Import Model.Base Model.Backoff Model.Stats Spec.BackoffSpec Spec.StatsSpec.
Import ListNotations.
Open Scope N_scope.
From Verif Require Import Proofs.T_Stats.

(** C17: what each poll of a back-off stream returns, for arbitrary poll times.  If [i] polls were ready before,
    then this poll, made at [t], is not ready as long as fewer than initial*2^i time has passed since the previous
    ready poll (for i = 0: since the first poll); otherwise it ends the stream if i+1 >= max_retries, and otherwise
    it yields initial*2^(i+1), the length of the next wait.  (An ended stream is not described further.) *)
Theorem C17_each_poll :
  forall (init max : N) (times : list N) pre t r post,
  (forall j, j < max \/ j = 0 -> init * 2 ^ (j + 1) <= longest) ->
  combine times (bo_polls (bo_new init max) times) = pre ++ (t, r) :: post ->
  let i := ready_count pre in
  (i < max \/ i = 0) ->
  r = if t <? wait_began t pre + init * 2 ^ i then BPending
      else if max <=? i + 1 then BEnd else BYield (init * 2 ^ (i + 1)).
Proof. exact C17_each_poll_pf. Qed.
Print Assumptions C17_each_poll.

(** C17 with no assumption on the lengths of the waits: the same, except that a poll at which the next wait would be longer than the longest Duration panics (and nothing is said of polls after that). *)
Theorem C17_each_poll_any_length :
  forall (init max : N) (times : list N) pre t r post,
  ~ In BPanic (map snd pre) ->
  combine times (bo_polls (bo_new init max) times) = pre ++ (t, r) :: post ->
  let i := ready_count pre in
  (i < max \/ i = 0) ->
  r = if t <? wait_began t pre + init * 2 ^ i then BPending
      else if longest <? init * 2 ^ (i + 1) then BPanic
      else if max <=? i + 1 then BEnd else BYield (init * 2 ^ (i + 1)).
Proof. exact C17_each_poll_any_length_pf. Qed.
Print Assumptions C17_each_poll_any_length.

(** C17: polled whenever its wait is over, the stream yields exactly max_retries-1 times (the k-th yield, k from
    1, being initial*2^k), then ends; the end comes initial*(2^max_retries-1) after the first poll.  (A limit of 0
    behaves like 1.) *)
Theorem C17_prompt_schedule :
  forall (init max start : N), 0 < init ->
  (forall j, j < max \/ j = 0 -> init * 2 ^ (j + 1) <= longest) ->
  let m := N.to_nat (N.max max 1) in
  bo_polls (bo_new init max) (map (fun k => start + init * (2 ^ N.of_nat k - 1)) (seq 0 (S m)))
  = BPending :: map (fun k => BYield (init * 2 ^ N.of_nat k)) (seq 1 (m - 1)) ++ [BEnd].
Proof. exact C17_prompt_schedule_pf. Qed.
Print Assumptions C17_prompt_schedule.

Example C17_example :
  (forall j, j < 3 \/ j = 0 -> 20 * 2 ^ (j + 1) <= longest) /\
  bo_polls (bo_new 20 3) [0; 5; 20; 45; 60; 61; 139; 150] =
    [BPending; BPending; BYield 40; BPending; BYield 80; BPending; BPending; BEnd].
Proof. exact C17_example_pf. Qed.

(** C19: after n >= 1 samples (no machine overflow: n times the largest bound stays below 2^64) the reported
    average lies between the smallest and the largest sample, is never above the true mean and at most (n-1)/2
    below it. *)
Theorem C19_average_bounds :
  forall (xs : list N) (lo hi : N),
  xs <> [] -> (forall x, In x xs -> lo <= x <= hi) ->
  let n := N.of_nat (length xs) in
  n < 2 ^ 64 -> n * hi < 2 ^ 64 ->
  exists a, avg_updates avg0 xs = Some a /\
    lo <= av_value a <= hi /\
    n * av_value a <= total xs /\
    2 * total xs <= 2 * (n * av_value a) + n * (n - 1).
Proof. exact C19_average_bounds_pf. Qed.
Print Assumptions C19_average_bounds.

Example C19_example :
  let xs := [10; 11; 30] in
  (forall x, In x xs -> 10 <= x <= 30) /\ avg_updates avg0 xs = Some (mkAvg 16 3) /\ total xs = 51.
Proof. exact C19_example_pf. Qed.

(** C20 is violated: for every distance d (up to 2^30) there is a sequence of samples (0,1,2,...: a steadily
    growing latency) without any overflow, after which the reported average is still 0 while the true mean is d.
    So the reported average does not follow the documented CA formula. *)
Theorem C20_average_follows_mean_refuted :
  forall d : N, d < 2 ^ 30 ->
  exists xs a, avg_updates avg0 xs = Some a /\ av_value a = 0 /\ length xs = S (N.to_nat (2 * d)) /\
    total xs = d * N.of_nat (length xs).
Proof. exact C20_average_follows_mean_refuted_pf. Qed.
Print Assumptions C20_average_follows_mean_refuted.

(** C20, what does hold: each update is the documented formula applied to the previously reported (already
    rounded) average. *)
Theorem C20_one_step_formula_partial :
  forall (a : avg) (x : N),
  av_idx a + 1 < 2 ^ 64 -> x + av_idx a * av_value a < 2 ^ 64 ->
  avg_update a x = Some (mkAvg ((x + av_idx a * av_value a) / (av_idx a + 1)) (av_idx a + 1)).
Proof. exact C20_one_step_formula_partial_pf. Qed.
Print Assumptions C20_one_step_formula_partial.

