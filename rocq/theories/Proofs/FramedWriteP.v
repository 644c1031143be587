(** The write half of Framed. *)
From Coq Require Import ZArith ZifyBool ZifyNat ZifyN.
From Verif Require Import Model.Base Model.FramedWrite Spec.WriteSpec Spec.Stream Proofs.BaseP Proofs.FramedP.
Local Open Scope nat_scope.

Definition total (w : fw) : bytes := fw_out w ++ fw_buf w.

Lemma flush_total ans : forall w w' r rest, fw_flush w ans = (w', r, rest) ->
  total w' = total w /\ (r = WReady -> fw_buf w' = []) /\ (exists t, fw_out w' = fw_out w ++ t) /\
  length (fw_buf w') <= length (fw_buf w).
Proof.
  assert (K : forall w : fw, exists t, fw_out w = fw_out w ++ t) by (intros w; exists []; rewrite app_nil_r; reflexivity).
  induction ans as [|a ans IH]; intros w w' r rest; cbn [fw_flush]; destruct (fw_buf w) as [|x b] eqn:B.
  - intros H; inversion H; subst. splits; auto; try (intros QQ; inversion QQ; fail); rewrite ?B; auto.
  - intros H; inversion H; subst. splits; auto; try (intros QQ; inversion QQ; fail); rewrite ?B; auto.
  - intros H. assert (w' = w) as -> by (destruct a; inversion H; reflexivity). rewrite B. splits; auto.
  - destruct a as [[|n]| |]; [| |intros H; inversion H; subst; splits; auto; try (intros QQ; inversion QQ; fail); rewrite ?B; auto
                             |intros H; inversion H; subst; splits; auto; try (intros QQ; inversion QQ; fail); rewrite ?B; auto].
    { intros H; inversion H; subst; splits; auto; try (intros QQ; inversion QQ; fail); rewrite ?B; auto. }
    intros H. apply IH in H as (T & F & (t & O) & L). unfold total in *. cbn [fw_out fw_buf] in *. splits; auto.
    + rewrite T, <- app_assoc, firstn_skipn. rewrite B. reflexivity.
    + rewrite O, <- app_assoc. eexists; reflexivity.
    + rewrite skipn_length in L. cbn [length] in *. lia.
Qed.

Lemma ready_total bd w ans w' r rest : fw_ready bd w ans = (w', r, rest) ->
  total w' = total w /\ (exists t, fw_out w' = fw_out w ++ t) /\ length (fw_buf w') <= length (fw_buf w) /\
  (r = WReady -> fw_buf w' = [] \/ (blen (fw_buf w') < bd)%N).
Proof.
  unfold fw_ready. destruct (bd <=? blen (fw_buf w))%N eqn:E.
  - intros H. apply flush_total in H as (T & F & O & L). splits; auto.
  - intros H; inversion H; subst. splits; auto. exists []; rewrite app_nil_r; reflexivity.
    intros _. right. lia.
Qed.

Lemma close_total w ans w' r rest : fw_close w ans = (w', r, rest) ->
  total w' = total w /\ (r = WReady -> fw_buf w' = []) /\ (exists t, fw_out w' = fw_out w ++ t) /\
  length (fw_buf w') <= length (fw_buf w).
Proof.
  unfold fw_close. destruct (fw_flush w ans) as [[w1 r1] a1] eqn:E. apply flush_total in E as (T & F & O & L).
  destruct r1; [|intros H; inversion H; subst; auto|intros H; inversion H; subst; auto].
  intros H. assert (w' = w1) as -> by (destruct a1 as [|[]]; inversion H; reflexivity). splits; auto.
Qed.

Section Run.
Context {M : Type} (encode : M -> bytes) (bd : N).

Lemma step_total w op w' r : fw_step encode bd w op = (w', r) ->
  total w' = total w ++ concat (map encode (messages_sent [op])) /\ (exists t, fw_out w' = fw_out w ++ t) /\
  (flushes op -> r = WReady -> fw_buf w' = []).
Proof.
  destruct op as [ans|m|ans|ans]; cbn [fw_step messages_sent flat_map map concat app].
  - destruct (fw_ready bd w ans) as [[w1 r1] a1] eqn:E. cbn [fst]. intros H; inversion H; subst. apply ready_total in E as (T & O & _).
    rewrite app_nil_r. splits; auto. intros (a & [?|?]); discriminate.
  - intros H; inversion H; subst. unfold total, fw_send. cbn [fw_out fw_buf]. rewrite app_nil_r, app_assoc. splits; auto.
    exists []; rewrite app_nil_r; reflexivity. intros (a & [?|?]); discriminate.
  - destruct (fw_flush w ans) as [[w1 r1] a1] eqn:E. cbn [fst]. intros H; inversion H; subst. apply flush_total in E as (T & F & O & _).
    rewrite app_nil_r. splits; auto.
  - destruct (fw_close w ans) as [[w1 r1] a1] eqn:E. cbn [fst]. intros H; inversion H; subst. apply close_total in E as (T & F & O & _).
    rewrite app_nil_r. splits; auto.
Qed.

Lemma run_total ops : forall w w' rs, fw_run encode bd w ops = (w', rs) ->
  total w' = total w ++ concat (map encode (messages_sent ops)) /\ length rs = length ops.
Proof.
  induction ops as [|op ops IH]; intros w w' rs; cbn [fw_run].
  - intros H; inversion H; subst. cbn. rewrite app_nil_r. auto.
  - destruct (fw_step encode bd w op) as [w1 r] eqn:S1. destruct (fw_run encode bd w1 ops) as [w2 rs2] eqn:R.
    intros H; inversion H; subst. apply IH in R as [T L]. apply step_total in S1 as (T1 & _ & _).
    rewrite T, T1. change (op :: ops) with ([op] ++ ops). unfold messages_sent. rewrite flat_map_app, map_app, concat_app, app_assoc.
    split; auto. cbn. lia.
Qed.

Lemma run_app ops1 : forall w ops2, fw_run encode bd w (ops1 ++ ops2) =
  let (w1, r1) := fw_run encode bd w ops1 in let (w2, r2) := fw_run encode bd w1 ops2 in (w2, r1 ++ r2).
Proof.
  induction ops1 as [|op ops IH]; intros w ops2; cbn [app fw_run].
  - destruct (fw_run encode bd w ops2); reflexivity.
  - destruct (fw_step encode bd w op) as [w1 r]. rewrite IH. destruct (fw_run encode bd w1 ops) as [w2 r2].
    destruct (fw_run encode bd w2 ops2) as [w3 r3]. reflexivity.
Qed.

Lemma run_last ops op w w' rs : fw_run encode bd w (ops ++ [op]) = (w', rs ++ [WReady]) -> flushes op -> fw_buf w' = [].
Proof.
  rewrite run_app. destruct (fw_run encode bd w ops) as [w1 r1]. cbn [fw_run].
  destruct (fw_step encode bd w1 op) as [w2 r] eqn:S1. intros H F. inversion H; subst.
  apply app_inj_tail in H2 as [_ ->]. apply step_total in S1 as (_ & _ & K). auto.
Qed.

(** A polite owner's buffer stays below the boundary plus one frame. *)
Lemma run_bound big ops : forall w w' rs allowed,
  (forall m, In m (messages_sent ops) -> blen (encode m) <= big)%N ->
  fw_run encode bd w ops = (w', rs) -> polite allowed ops rs ->
  (blen (fw_buf w) <= (bd - 1) + big)%N -> (allowed = true -> fw_buf w = [] \/ (blen (fw_buf w) < bd)%N) ->
  (blen (fw_buf w') <= (bd - 1) + big)%N.
Proof.
  induction ops as [|op ops IH]; intros w w' rs allowed BIG; cbn [fw_run].
  - intros H; inversion H; subst. auto.
  - destruct (fw_step encode bd w op) as [w1 r] eqn:S1. destruct (fw_run encode bd w1 ops) as [w2 rs2] eqn:R.
    intros H; inversion H; subst. clear H. intros P B A.
    assert (BIG' : forall m, In m (messages_sent ops) -> (blen (encode m) <= big)%N).
    { intros m I. apply BIG. unfold messages_sent in *. cbn. apply in_or_app. auto. }
    destruct op as [ans|m|ans|ans]; cbn [fw_step] in S1.
    + destruct (fw_ready bd w ans) as [[wx rx] ax] eqn:E. cbn [fst] in S1. inversion S1; subst. apply ready_total in E as (_ & _ & L & K).
      assert (blen (fw_buf w1) <= bd - 1 + big)%N by (unfold blen in *; lia).
      destruct r; cbn [polite] in P; eapply IH; try exact R; eauto; discriminate.
    + inversion S1; subst. cbn [polite] in P. destruct P as [-> P]. specialize (A eq_refl).
      eapply IH; try exact R; eauto; [|discriminate].
      unfold fw_send. cbn [fw_buf]. unfold blen in *. rewrite app_length.
      specialize (BIG m ltac:(cbn; auto)). destruct A as [A|A]; [rewrite A; cbn [length]|]; lia.
    + destruct (fw_flush w ans) as [[wx rx] ax] eqn:E. cbn [fst] in S1. inversion S1; subst. apply flush_total in E as (_ & _ & _ & L).
      cbn [polite] in P. eapply IH; try exact R; eauto; [unfold blen in *; lia|discriminate].
    + destruct (fw_close w ans) as [[wx rx] ax] eqn:E. cbn [fst] in S1. inversion S1; subst. apply close_total in E as (_ & _ & _ & L).
      cbn [polite] in P. eapply IH; try exact R; eauto; [unfold blen in *; lia|discriminate].
Qed.
End Run.

(** Decoding a prefix of a byte string that decodes completely. *)
Section Prefix.
Context {S M E : Type} (decode : S -> bytes -> dres S M E) (ok : S -> Prop) (wt : S -> nat).
Hypothesis INC : incremental decode ok wt.

Lemma stream_prefix a : forall s b ms s1 r1 ms' t', ok s ->
  stream decode s (a ++ b) ms (TMore s1 r1) -> stream decode s a ms' t' ->
  prefix_of ms' ms /\ exists s2 r2, t' = TMore s2 r2.
Proof using INC.
  intros s b ms s1 r1 ms' t' O H1 H2. revert b ms s1 r1 O H1.
  induction H2 as [s a s' r D|s a e s' r D|s a m s' r ms' t' D H2 IH]; intros b ms s1 r1 O H1.
  - split; [exists ms; reflexivity|eauto].
  - exfalso. destruct (inc_err _ _ _ INC _ _ _ _ _ O D) as [X _]. inversion H1; subst; rewrite X in *; discriminate.
  - destruct (inc_msg _ _ _ INC _ _ _ _ _ O D) as (X & O' & _). inversion H1; subst; rewrite X in *; try discriminate.
    match goal with Q : DMsg _ _ _ = DMsg _ _ _ |- _ => inversion Q; subst end.
    match goal with Q : stream decode s'0 _ _ _ |- _ => destruct (IH _ _ _ _ O' Q) as [[q ->] T] end.
    split; [exists q; reflexivity|exact T].
Qed.
End Prefix.
