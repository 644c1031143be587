(** Back-off and running averages: C17, C19, C20. *)
From Coq Require Import List NArith.
From Verif Require Import Model.Base Model.Backoff Model.Stats Spec.BackoffSpec Spec.StatsSpec.
Import ListNotations.
Open Scope N_scope.
(*HEADEND*)
From Coq Require Import ZArith ZifyBool ZifyNat ZifyN.
From Verif Require Import Proofs.BaseP.
Local Open Scope N_scope.

Lemma pow2_S i : 2 ^ (i + 1) = 2 ^ i * 2.
Proof. rewrite N.pow_add_r. reflexivity. Qed.

Lemma ready_count_cons t r pre : ready_count ((t, r) :: pre) = (if is_ready r then 1 else 0) + ready_count pre.
Proof. unfold ready_count. cbn [filter snd]. destruct (is_ready r); cbn [length]; lia. Qed.

Section B.
Variables (init max : N).

Definition bo_at (i armed : N) : backoff := mkBackoff i max (init * 2 ^ i) (Some (armed + init * 2 ^ i)).

Definition expect (i armed t : N) : bpoll :=
  if t <? armed + init * 2 ^ i then BPending else if longest <? init * 2 ^ (i + 1) then BPanic else if max <=? i + 1 then BEnd else BYield (init * 2 ^ (i + 1)).

Lemma poll_at i armed t :
  exists b', bo_poll t (bo_at i armed) = (b', expect i armed t) /\
    (t < armed + init * 2 ^ i -> b' = bo_at i armed) /\
    (armed + init * 2 ^ i <= t -> init * 2 ^ (i + 1) <= longest -> i + 1 < max -> b' = bo_at (i + 1) t).
Proof.
  unfold bo_poll, bo_armed, expect, bo_at. cbn [bo_timeout bo_cur bo_count bo_max].
  change DURATION_MAX with longest. rewrite !(pow2_S i), !N.mul_assoc.
  destruct (N.ltb_spec t (armed + init * 2 ^ i)).
  - rewrite (proj2 (N.leb_gt _ _)) by lia. eexists; split; [reflexivity|]. split; [reflexivity|lia].
  - rewrite (proj2 (N.leb_le _ _)) by lia. destruct (N.ltb_spec longest (init * 2 ^ i * 2)); [eexists; split; [reflexivity|]; split; intros; lia|].
    destruct (N.leb_spec max (i + 1)).
    + eexists; split; [reflexivity|]. split; intros; lia.
    + eexists; split; [reflexivity|]. split; [lia|].
      intros _ _ _. unfold bo_reset; cbn. reflexivity.
Qed.

Lemma polls_at times : forall i armed pre t r post,
  (i < max \/ i = 0) -> ~ In BPanic (map snd pre) ->
  combine times (bo_polls (bo_at i armed) times) = pre ++ (t, r) :: post ->
  (i + ready_count pre < max \/ i + ready_count pre = 0) ->
  r = expect (i + ready_count pre) (last_ready armed pre) t.
Proof.
  induction times as [|u times IH]; intros i armed pre t r post Hi Hov E Hr.
  { cbn in E. destruct pre; discriminate. }
  cbn [bo_polls] in E. destruct (poll_at i armed u) as (b' & Hp & Hnot & Hyes).
  rewrite Hp in E. cbn [combine] in E.
  destruct pre as [|[u' r'] pre].
  - cbn in E. inversion E; subst. unfold ready_count, last_ready; cbn. rewrite N.add_0_r. reflexivity.
  - cbn [app] in E. inversion E as [[H1 H2 E2]]. subst u' r'.
    rewrite ready_count_cons in *. cbn [last_ready fold_left fst snd].
    unfold last_ready; cbn [fold_left fst snd]. fold (last_ready (if is_ready (expect i armed u) then u else armed) pre).
    destruct (N.ltb_spec u (armed + init * 2 ^ i)) as [Hlt|Hge].
    + assert (X : expect i armed u = BPending) by (unfold expect; rewrite (proj2 (N.ltb_lt _ _)) by lia; reflexivity).
      rewrite X in *. cbn [is_ready] in *. rewrite N.add_0_l in *.
      rewrite Hnot in E2 by assumption. eapply IH; eauto. intros Hp2. apply Hov. now right.
    + assert (X : is_ready (expect i armed u) = true).
      { unfold expect. rewrite (proj2 (N.ltb_ge _ _)) by lia. destruct (longest <? _), (max <=? i + 1); reflexivity. }
      assert (Np : init * 2 ^ (i + 1) <= longest).
      { destruct (N.ltb_spec longest (init * 2 ^ (i + 1))) as [Hl|]; [|assumption]. exfalso. apply Hov. left. cbn. unfold expect. rewrite (proj2 (N.ltb_ge _ _)), (proj2 (N.ltb_lt _ _) Hl) by lia. reflexivity. }
      rewrite X in *. rewrite N.add_assoc in *.
      assert (i + 1 < max) by lia.
      rewrite Hyes in E2 by (assumption || lia). eapply IH; eauto. intros Hp2. apply Hov. now right.
Qed.
End B.

Lemma each_poll_any (init max : N) (times : list N) pre t r post :
  ~ In BPanic (map snd pre) -> combine times (bo_polls (bo_new init max) times) = pre ++ (t, r) :: post ->
  let i := ready_count pre in (i < max \/ i = 0) ->
  r = if t <? wait_began t pre + init * 2 ^ i then BPending
      else if longest <? init * 2 ^ (i + 1) then BPanic
      else if max <=? i + 1 then BEnd else BYield (init * 2 ^ (i + 1)).
Proof.
  intros Hov E i Hi. subst i.
  destruct times as [|u times]; [destruct pre; discriminate|].
  assert (P : bo_polls (bo_new init max) (u :: times) = bo_polls (bo_at init max 0 u) (u :: times)).
  { cbn [bo_polls]. unfold bo_poll, bo_new, bo_at, bo_reset. cbn [bo_timeout bo_cur bo_count bo_max].
    rewrite N.pow_0_r, N.mul_1_r. reflexivity. }
  rewrite P in E. pose proof (polls_at init max (u :: times) 0 u pre t r post) as H.
  rewrite !N.add_0_l in H. rewrite H; [|lia|assumption|assumption|assumption].
  unfold expect, wait_began. destruct pre as [|[v r'] pre]; cbn [last_ready fold_left].
  - cbn [bo_polls] in E. destruct (bo_poll u (bo_at init max 0 u)). cbn [combine app] in E. inversion E; subst. reflexivity.
  - cbn [bo_polls] in E. destruct (bo_poll u (bo_at init max 0 u)). cbn [combine app] in E. inversion E; subst. reflexivity.
Qed.

(*@prop C17: what each poll of a back-off stream returns, for arbitrary poll times.  If [i] polls were ready before,
    then this poll, made at [t], is not ready as long as fewer than initial*2^i time has passed since the previous
    ready poll (for i = 0: since the first poll); otherwise it ends the stream if i+1 >= max_retries, and otherwise
    it yields initial*2^(i+1), the length of the next wait.  (An ended stream is not described further.) *)
Lemma C17_each_poll_pf :
  forall (init max : N) (times : list N) pre t r post,
  (forall j, j < max \/ j = 0 -> init * 2 ^ (j + 1) <= longest) ->
  combine times (bo_polls (bo_new init max) times) = pre ++ (t, r) :: post ->
  let i := ready_count pre in
  (i < max \/ i = 0) ->
  r = if t <? wait_began t pre + init * 2 ^ i then BPending
      else if max <=? i + 1 then BEnd else BYield (init * 2 ^ (i + 1)).
Proof.
  intros init max times. enough (H : forall n pre t r post, (length pre <= n)%nat -> (forall j, j < max \/ j = 0 -> init * 2 ^ (j + 1) <= longest) ->
    combine times (bo_polls (bo_new init max) times) = pre ++ (t, r) :: post -> let i := ready_count pre in (i < max \/ i = 0) ->
    ~ In BPanic (map snd pre) /\ r = if t <? wait_began t pre + init * 2 ^ i then BPending else if max <=? i + 1 then BEnd else BYield (init * 2 ^ (i + 1))).
  { intros pre t r post Hov E i Hi. apply (H (length pre) pre t r post (le_n _) Hov E Hi). }
  induction n as [|n IH]; intros pre t r post Hn Hov E i Hi; (assert (Np : ~ In BPanic (map snd pre)); [|split; [exact Np|]; rewrite (each_poll_any _ _ _ _ _ _ _ Np E Hi); fold i; rewrite (proj2 (N.ltb_ge longest _)) by (apply Hov, Hi); reflexivity]).
  - destruct pre; [intros []|cbn in Hn; lia].
  - intros Hp. apply in_map_iff in Hp. destruct Hp as ([u q] & Eq & Hp). cbn in Eq. subst q. apply in_split in Hp. destruct Hp as (p1 & p2 & ->). rewrite <- app_assoc in E. cbn [app] in E.
    assert (Hle : ready_count p1 <= i). { unfold i, ready_count. rewrite filter_app, app_length. lia. }
    destruct (IH p1 u BPanic (p2 ++ (t, r) :: post)) as (_ & X); [rewrite app_length in Hn; cbn in Hn; lia|exact Hov|exact E|lia|].
    destruct (_ <? _); [discriminate|]. destruct (_ <=? _); discriminate.
Qed.

(*@prop C17 with no assumption on the lengths of the waits: the same, except that a poll at which the next wait would be longer than the longest Duration panics (and nothing is said of polls after that). *)
Lemma C17_each_poll_any_length_pf :
  forall (init max : N) (times : list N) pre t r post,
  ~ In BPanic (map snd pre) ->
  combine times (bo_polls (bo_new init max) times) = pre ++ (t, r) :: post ->
  let i := ready_count pre in
  (i < max \/ i = 0) ->
  r = if t <? wait_began t pre + init * 2 ^ i then BPending
      else if longest <? init * 2 ^ (i + 1) then BPanic
      else if max <=? i + 1 then BEnd else BYield (init * 2 ^ (i + 1)).
Proof. exact each_poll_any. Qed.

(** Polling again and again, each time the moment the running wait is over. *)
Lemma prompt_run init max : forall n i armed,
  (forall j, j < max \/ j = 0 -> init * 2 ^ (j + 1) <= longest) -> (i < max \/ i = 0) ->
  N.of_nat n + i + 1 = N.max max 1 ->
  bo_polls (bo_at init max i armed) (map (fun k => armed + init * (2 ^ (N.of_nat k + i + 1) - 2 ^ i)) (seq 0 (S n)))
  = map (fun k => BYield (init * 2 ^ (N.of_nat k + i + 1))) (seq 0 n) ++ [BEnd].
Proof.
  induction n as [|n IH]; intros i armed Hov Hi Hn; pose proof (proj2 (N.ltb_ge longest _) (Hov i Hi)) as Nov; pose proof (Hov i Hi) as Nle; rewrite (pow2_S i) in Nov.
  - cbn [seq map bo_polls app].
    destruct (poll_at init max i armed (armed + init * (2 ^ (N.of_nat 0 + i + 1) - 2 ^ i))) as (b' & -> & _).
    unfold expect. change (N.of_nat 0) with 0. rewrite N.add_0_l, pow2_S.
    replace (2 ^ i * 2 - 2 ^ i) with (2 ^ i) by lia.
    rewrite N.ltb_irrefl, Nov, (proj2 (N.leb_le _ _)) by lia. reflexivity.
  - assert (i + 1 < max) by lia.
    change (seq 0 (S (S n))) with (0%nat :: seq 1 (S n)). rewrite <- seq_shift, map_cons, map_map.
    change (seq 0 (S n)) with (0%nat :: seq 1 n) at 2. rewrite <- (seq_shift n 0), map_cons, map_map.
    cbn [bo_polls].
    destruct (poll_at init max i armed (armed + init * (2 ^ (N.of_nat 0 + i + 1) - 2 ^ i))) as (b' & Hp & _ & Hy).
    rewrite Hp. change (N.of_nat 0) with 0 in *. rewrite N.add_0_l, pow2_S in *.
    replace (2 ^ i * 2 - 2 ^ i) with (2 ^ i) in * by lia.
    unfold expect. rewrite N.ltb_irrefl, pow2_S, Nov, (proj2 (N.leb_gt _ _)) by lia. cbn [app].
    rewrite (Hy (N.le_refl _)) by (lia || (rewrite <- pow2_S; exact Nle)). f_equal.
    erewrite map_ext; [rewrite (IH (i + 1)); [|assumption|lia|lia]|].
    + f_equal. apply map_ext. intros k. do 3 f_equal. lia.
    + intros k. cbn beta.
      replace (N.of_nat (S k) + i + 1) with (N.of_nat k + (i + 1) + 1) by lia.
      rewrite pow2_S. 
      assert (2 ^ (i + 1) <= 2 ^ (N.of_nat k + (i + 1))) by (apply N.pow_le_mono_r; lia).
      rewrite (pow2_S i) in *. rewrite <- N.add_assoc, <- N.mul_add_distr_l. do 2 f_equal. lia.
Qed.

(*@prop C17: polled whenever its wait is over, the stream yields exactly max_retries-1 times (the k-th yield, k from
    1, being initial*2^k), then ends; the end comes initial*(2^max_retries-1) after the first poll.  (A limit of 0
    behaves like 1.) *)
Lemma C17_prompt_schedule_pf :
  forall (init max start : N), 0 < init ->
  (forall j, j < max \/ j = 0 -> init * 2 ^ (j + 1) <= longest) ->
  let m := N.to_nat (N.max max 1) in
  bo_polls (bo_new init max) (map (fun k => start + init * (2 ^ N.of_nat k - 1)) (seq 0 (S m)))
  = BPending :: map (fun k => BYield (init * 2 ^ N.of_nat k)) (seq 1 (m - 1)) ++ [BEnd].
Proof.
  intros init max start Hi Hov m.
  change (seq 0 (S m)) with (0%nat :: seq 1 m). cbn [map].
  change (N.of_nat 0) with 0. rewrite N.pow_0_r. change (1 - 1) with 0. rewrite N.mul_0_r, N.add_0_r.
  cbn [bo_polls]. unfold bo_poll at 1, bo_new, bo_armed. cbn [bo_timeout bo_cur].
  rewrite (proj2 (N.leb_gt _ _)) by lia. f_equal.
  assert (Hm : exists n, m = S n) by (exists (pred m); unfold m; lia). destruct Hm as [n Hn].
  pose proof (prompt_run init max n 0 start Hov) as H.
  rewrite Hn, <- seq_shift, map_map. cbn [Nat.sub]. rewrite Nat.sub_0_r.
  rewrite <- (seq_shift n 0), map_map.
  unfold bo_reset. cbn [bo_count bo_max bo_cur].
  unfold bo_at in H. rewrite N.pow_0_r, N.mul_1_r in H.
  erewrite map_ext; [rewrite H; [|lia|lia]|].
  - f_equal. apply map_ext. intros k. do 3 f_equal. lia.
  - intros k. cbn beta. do 4 f_equal. lia.
Qed.

(*@example *)
Lemma C17_example_pf :
  (forall j, j < 3 \/ j = 0 -> 20 * 2 ^ (j + 1) <= longest) /\
  bo_polls (bo_new 20 3) [0; 5; 20; 45; 60; 61; 139; 150] =
    [BPending; BPending; BYield 40; BPending; BYield 80; BPending; BPending; BEnd].
Proof.
  split; [|reflexivity]. intros j Hj. assert (H : j + 1 <= 3) by lia.
  apply (N.pow_le_mono_r 2) in H; [|lia]. unfold longest. change (2 ^ 3) with 8 in H. change ((2 ^ 64 - 1) * 1000000000 + 999999999) with 18446744073709551615999999999. lia.
Qed.

(** * Running average *)

Lemma avg_update_small a x : av_idx a + 1 < 2 ^ 64 -> x + av_idx a * av_value a < 2 ^ 64 ->
  avg_update a x = Some (mkAvg ((x + av_idx a * av_value a) / (av_idx a + 1)) (av_idx a + 1)).
Proof.
  intros H1 H2. unfold avg_update, wrap64. rewrite (N.mod_small (av_idx a + 1)) by assumption.
  rewrite (proj2 (N.eqb_neq _ _)) by lia.
  rewrite (N.mod_small (av_idx a * av_value a)) by lia. rewrite (N.mod_small (x + _)) by assumption. reflexivity.
Qed.

(** The facts kept about the samples seen so far. *)
Definition avg_inv (lo hi s : N) (a : avg) : Prop :=
  (av_idx a = 0 \/ lo <= av_value a <= hi) /\ av_idx a * av_value a <= s /\
  2 * s <= 2 * (av_idx a * av_value a) + av_idx a * (av_idx a - 1).

Lemma avg_inv_step lo hi s a x : lo <= x <= hi -> avg_inv lo hi s a ->
  avg_inv lo hi (s + x) (mkAvg ((x + av_idx a * av_value a) / (av_idx a + 1)) (av_idx a + 1)).
Proof.
  intros Hx (Hr & Hle & Hge). destruct a as [v n]; cbn [av_idx av_value] in *.
  set (q := (x + n * v) / (n + 1)).
  assert (Hq : (n + 1) * q <= x + n * v < (n + 1) * q + (n + 1)).
  { subst q. pose proof (N.div_mod (x + n * v) (n + 1)) as D. pose proof (N.mod_lt (x + n * v) (n + 1)) as L.
    specialize (D ltac:(lia)). specialize (L ltac:(lia)). lia. }
  unfold avg_inv; cbn [av_idx av_value]. split; [right|].
  - destruct Hr as [->|Hr].
    + lia.
    + split.
      * apply N.lt_succ_r, (N.mul_lt_mono_pos_l (n + 1)); [lia|]. nia.
      * apply N.lt_succ_r, (N.mul_lt_mono_pos_l (n + 1)); [lia|]. nia.
  - split; [lia|]. destruct (N.eq_dec n 0) as [->|Hn]; [lia|].
    replace ((n + 1) * (n + 1 - 1)) with (n * (n - 1) + 2 * n) by (replace (n + 1 - 1) with n by lia; nia).
    lia.
Qed.

Lemma avg_updates_inv lo hi B : forall xs a s,
  (forall x, In x xs -> lo <= x <= hi) -> avg_inv lo hi s a ->
  av_idx a + N.of_nat (length xs) <= B -> B < 2 ^ 64 -> B * hi < 2 ^ 64 ->
  exists a', avg_updates a xs = Some a' /\ av_idx a' = av_idx a + N.of_nat (length xs) /\
             avg_inv lo hi (s + total xs) a'.
Proof.
  induction xs as [|x xs IH]; intros a s Hx Hinv HB HB1 HB2.
  - exists a. split; [reflexivity|]. cbn. rewrite !N.add_0_r. auto.
  - cbn [avg_updates]. cbn [length] in HB.
    assert (Hxx : lo <= x <= hi) by (apply Hx; left; reflexivity).
    rewrite avg_update_small.
    + destruct (IH (mkAvg ((x + av_idx a * av_value a) / (av_idx a + 1)) (av_idx a + 1)) (s + x)) as (a' & E & Hi & Hv).
      * intros y Hy. apply Hx. right. exact Hy.
      * apply avg_inv_step; assumption.
      * cbn [av_idx]. lia.
      * assumption.
      * assumption.
      * exists a'. split; [exact E|]. cbn [av_idx] in Hi. split; [cbn [length]; lia|].
        cbn [total fold_right]. fold (total xs). rewrite N.add_assoc. exact Hv.
    + lia.
    + destruct Hinv as ([H0|Hr] & _ & _).
      * rewrite H0. nia.
      * assert (av_idx a * av_value a <= av_idx a * hi) by (apply N.mul_le_mono_l; lia). nia.
Qed.

(*@prop C19: after n >= 1 samples (no machine overflow: n times the largest bound stays below 2^64) the reported
    average lies between the smallest and the largest sample, is never above the true mean and at most (n-1)/2
    below it. *)
Lemma C19_average_bounds_pf :
  forall (xs : list N) (lo hi : N),
  xs <> [] -> (forall x, In x xs -> lo <= x <= hi) ->
  let n := N.of_nat (length xs) in
  n < 2 ^ 64 -> n * hi < 2 ^ 64 ->
  exists a, avg_updates avg0 xs = Some a /\
    lo <= av_value a <= hi /\
    n * av_value a <= total xs /\
    2 * total xs <= 2 * (n * av_value a) + n * (n - 1).
Proof.
  intros xs lo hi Hne Hx n Hn Hh.
  destruct (avg_updates_inv lo hi n xs avg0 0 Hx) as (a & E & Hi & Hr & Hle & Hge).
  - unfold avg_inv, avg0; cbn. lia.
  - cbn. unfold n. lia.
  - assumption.
  - assumption.
  - cbn [av_idx avg0] in Hi. rewrite N.add_0_l in Hi. fold n in Hi. rewrite Hi in *. rewrite N.add_0_l in *.
    exists a. split; [exact E|]. split; [|split; assumption].
    destruct Hr as [H0|]; [|assumption]. exfalso. destruct xs; [congruence|]. unfold n in H0. cbn in H0. lia.
Qed.

(*@example *)
Lemma C19_example_pf :
  let xs := [10; 11; 30] in
  (forall x, In x xs -> 10 <= x <= 30) /\ avg_updates avg0 xs = Some (mkAvg 16 3) /\ total xs = 51.
Proof.
  cbn zeta. split; [|split; reflexivity]. intros x Hx. cbn in Hx. lia.
Qed.

Lemma drift_stuck : forall k n, n + N.of_nat k < 2 ^ 32 ->
  avg_updates (mkAvg 0 n) (map N.of_nat (seq (N.to_nat n) k)) = Some (mkAvg 0 (n + N.of_nat k)).
Proof.
  induction k as [|k IH]; intros n Hn.
  - cbn. rewrite N.add_0_r. reflexivity.
  - cbn [seq map avg_updates]. rewrite N2Nat.id.
    rewrite avg_update_small; cbn [av_idx av_value]; [|change (2 ^ 64) with (2 ^ 32 * 2 ^ 32); lia..].
    rewrite N.mul_0_r, N.add_0_r, N.div_small by lia.
    replace (S (N.to_nat n)) with (N.to_nat (n + 1)) by lia. rewrite IH by lia. do 2 f_equal. lia.
Qed.

Lemma total_seq k n : 2 * total (map N.of_nat (seq n k)) = N.of_nat k * (2 * N.of_nat n + N.of_nat k - 1).
Proof.
  revert n; induction k as [|k IH]; intros n; [reflexivity|].
  cbn [seq map total fold_right]. fold (total (map N.of_nat (seq (S n) k))).
  rewrite N.mul_add_distr_l, IH. nia.
Qed.

(*@prop C20 is violated: for every distance d (up to 2^30) there is a sequence of samples (0,1,2,...: a steadily
    growing latency) without any overflow, after which the reported average is still 0 while the true mean is d.
    So the reported average does not follow the documented CA formula. *)
Lemma C20_average_follows_mean_refuted_pf :
  forall d : N, d < 2 ^ 30 ->
  exists xs a, avg_updates avg0 xs = Some a /\ av_value a = 0 /\ length xs = S (N.to_nat (2 * d)) /\
    total xs = d * N.of_nat (length xs).
Proof.
  intros d Hd. exists (map N.of_nat (seq 0 (S (N.to_nat (2 * d))))).
  exists (mkAvg 0 (0 + N.of_nat (S (N.to_nat (2 * d))))).
  split; [apply (drift_stuck _ 0); lia|]. split; [reflexivity|].
  rewrite map_length, seq_length. split; [reflexivity|].
  pose proof (total_seq (S (N.to_nat (2 * d))) 0) as H. nia.
Qed.

(*@prop C20, what does hold: each update is the documented formula applied to the previously reported (already
    rounded) average. *)
Lemma C20_one_step_formula_partial_pf :
  forall (a : avg) (x : N),
  av_idx a + 1 < 2 ^ 64 -> x + av_idx a * av_value a < 2 ^ 64 ->
  avg_update a x = Some (mkAvg ((x + av_idx a * av_value a) / (av_idx a + 1)) (av_idx a + 1)).
Proof. exact avg_update_small. Qed.
