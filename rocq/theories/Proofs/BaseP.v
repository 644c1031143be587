From Coq Require Import ZArith ZifyBool ZifyNat ZifyN.
From Verif Require Import Model.Base Spec.Wire.
Ltac Zify.zify_post_hook ::= Z.div_mod_to_equations.
Local Open Scope N_scope.

Lemma to_N_bound b : Byte.to_N b < 256.
Proof. destruct b; cbv; reflexivity. Qed.

Lemma of_N_to_N b : Byte.of_N (Byte.to_N b) = Some b.
Proof. destruct b; reflexivity. Qed.

Lemma byte_of_to_N b : byte_of (Byte.to_N b) = b.
Proof. destruct b; reflexivity. Qed.

Lemma to_N_byte_of n : Byte.to_N (byte_of n) = n mod 256.
Proof.
  unfold byte_of. destruct (Byte.of_N (n mod 256)) as [b|] eqn:E.
  - apply Byte.to_of_N in E. exact E.
  - exfalso. apply Byte.of_N_None_iff in E. pose proof (N.mod_lt n 256 ltac:(lia)). lia.
Qed.

Lemma byte_of_mod n : byte_of (n mod 256) = byte_of n.
Proof. unfold byte_of. rewrite N.mod_mod by lia. reflexivity. Qed.

Lemma to_N_inj a b : Byte.to_N a = Byte.to_N b -> a = b.
Proof. intros H. rewrite <- (byte_of_to_N a), <- (byte_of_to_N b), H. reflexivity. Qed.

Lemma byte_eqb_spec a b : reflect (a = b) (Byte.eqb a b).
Proof.
  destruct (Byte.eqb a b) eqn:E; constructor.
  - apply Byte.byte_dec_bl; exact E.
  - intros ->. rewrite Byte.byte_dec_lb in E by reflexivity. discriminate.
Qed.

Lemma put_be_length k n : length (put_be k n) = k.
Proof. induction k; simpl; congruence. Qed.

Lemma pow256_pos k : 256 ^ k <> 0.
Proof. apply N.pow_nonzero. lia. Qed.

Lemma be_value_lt b : be_value b < 256 ^ N.of_nat (length b).
Proof.
  induction b as [|x r IH]; [cbn; lia|].
  cbn [be_value length]. rewrite Nnat.Nat2N.inj_succ, N.pow_succ_r'.
  pose proof (to_N_bound x). nia.
Qed.

Lemma be_value_put k n : be_value (put_be k n) = n mod 256 ^ N.of_nat k.
Proof.
  induction k as [|k IH].
  - cbn. rewrite N.mod_1_r. reflexivity.
  - cbn [put_be be_value]. rewrite put_be_length, to_N_byte_of, IH, Nnat.Nat2N.inj_succ, N.pow_succ_r'.
    pose proof (pow256_pos (N.of_nat k)) as Hp.
    rewrite (N.mul_comm 256). rewrite N.mod_mul_r by (lia || exact Hp). lia.
Qed.

Lemma get_be_fold b acc :
  fold_left (fun acc x => acc * 256 + Byte.to_N x) b acc = acc * 256 ^ N.of_nat (length b) + be_value b.
Proof.
  revert acc; induction b as [|x r IH]; intros acc; cbn [fold_left be_value length].
  - cbn. lia.
  - rewrite IH, Nnat.Nat2N.inj_succ, N.pow_succ_r'. lia.
Qed.

Lemma get_be_value b : get_be b = be_value b.
Proof. unfold get_be. rewrite get_be_fold. lia. Qed.

Lemma get_put k n : n < 256 ^ N.of_nat k -> get_be (put_be k n) = n.
Proof. intros H. rewrite get_be_value, be_value_put. apply N.mod_small, H. Qed.

Lemma put_be_add_high k n x : put_be k (x * 256 ^ N.of_nat k + n) = put_be k n.
Proof.
  revert n x. induction k as [|k IH]; intros n x; [reflexivity|].
  cbn [put_be]. rewrite Nnat.Nat2N.inj_succ, N.pow_succ_r'. f_equal.
  - rewrite <- byte_of_mod. rewrite <- (byte_of_mod (n / _)). f_equal.
    replace (x * (256 * 256 ^ N.of_nat k) + n) with (n + (x * 256) * 256 ^ N.of_nat k) by lia.
    rewrite N.div_add by apply pow256_pos. rewrite N.mod_add by lia. reflexivity.
  - replace (x * (256 * 256 ^ N.of_nat k) + n) with ((x * 256) * 256 ^ N.of_nat k + n) by lia.
    apply IH.
Qed.

Lemma put_get k b : length b = k -> put_be k (get_be b) = b.
Proof.
  rewrite get_be_value. revert k; induction b as [|x r IH]; intros k Hk; subst k; [reflexivity|].
  cbn [length put_be be_value]. f_equal.
  - rewrite N.div_add_l by apply pow256_pos.
    rewrite N.div_small by apply be_value_lt. rewrite N.add_0_r. apply byte_of_to_N.
  - rewrite put_be_add_high. apply IH. reflexivity.
Qed.

Lemma get_be_lt b k : length b = k -> get_be b < 256 ^ N.of_nat k.
Proof. intros <-. rewrite get_be_value. apply be_value_lt. Qed.

Lemma blen_app {A} (a b : list A) : blen (a ++ b) = blen a + blen b.
Proof. unfold blen. rewrite app_length. lia. Qed.

Lemma blen_cons {A} (a : A) b : blen (a :: b) = 1 + blen b.
Proof. unfold blen. cbn [length]. lia. Qed.

Lemma split_to_spec n b : n <= blen b ->
  exists p r, split_to n b = Some (p, r) /\ b = p ++ r /\ blen p = n.
Proof.
  intros H. unfold split_to. destruct (N.ltb_spec (blen b) n); [lia|].
  do 2 eexists; split; [reflexivity|]. split; [symmetry; apply firstn_skipn|].
  unfold blen in *. rewrite firstn_length. lia.
Qed.

Lemma split_to_inv n b p r : split_to n b = Some (p, r) -> b = p ++ r /\ blen p = n.
Proof.
  unfold split_to. destruct (N.ltb_spec (blen b) n); [discriminate|].
  intros E; inversion E; subst; clear E. split; [symmetry; apply firstn_skipn|].
  unfold blen in *. rewrite firstn_length. lia.
Qed.

Lemma split_to_app n p r : blen p = n -> split_to n (p ++ r) = Some (p, r).
Proof.
  intros <-. unfold split_to. rewrite blen_app.
  destruct (N.ltb_spec (blen p + blen r) (blen p)); [lia|].
  unfold blen. rewrite Nnat.Nat2N.id.
  rewrite firstn_app, firstn_all, Nat.sub_diag, skipn_app, skipn_all, Nat.sub_diag.
  cbn. rewrite app_nil_r. reflexivity.
Qed.

Lemma split_to_app_ext n b p r x : split_to n b = Some (p, r) -> split_to n (b ++ x) = Some (p, r ++ x).
Proof.
  intros H. apply split_to_inv in H as [-> H]. rewrite <- app_assoc. apply split_to_app, H.
Qed.

Lemma split_to_None n b : split_to n b = None <-> blen b < n.
Proof. unfold split_to. destruct (N.ltb_spec (blen b) n); split; intros; try discriminate; try lia; reflexivity. Qed.

Lemma index_app b x i v : index b i = Some v -> index (b ++ x) i = Some v.
Proof. unfold index. intros H. rewrite nth_error_app1; [exact H|]. apply nth_error_Some. congruence. Qed.

Lemma index_ok b i : N.of_nat i < blen b -> exists v, index b i = Some v.
Proof.
  intros H. unfold index, blen in *. destruct (nth_error b i) eqn:E; [eauto|].
  apply nth_error_None in E. lia.
Qed.

Lemma is_be_put k n : n < 256 ^ N.of_nat k -> is_be k n (put_be k n).
Proof.
  intros H. split; [apply put_be_length|]. rewrite be_value_put. apply N.mod_small, H.
Qed.

Lemma is_be_unique k n b : is_be k n b -> b = put_be k n.
Proof. intros [Hl Hv]. rewrite <- Hv, <- get_be_value. symmetry. apply put_get, Hl. Qed.

Lemma is_be_lt k n b : is_be k n b -> n < 256 ^ N.of_nat k.
Proof. intros [Hl Hv]. subst. apply be_value_lt. Qed.
