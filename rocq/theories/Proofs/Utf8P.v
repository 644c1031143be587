(** UTF-8: the lossy conversion is the identity on valid strings and always gives valid ones. *)
From Coq Require Import List NArith ZArith Lia Bool.
From Verif Require Import Model.Base Model.Utf8 Spec.Utf8Spec Proofs.BaseP.
Import ListNotations.
Open Scope N_scope.

Ltac nlia := zify; Z.div_mod_to_equations; lia.

Lemma safe_get_cons x b i : safe_get (x :: b) (S i) = safe_get b i.
Proof. reflexivity. Qed.
Lemma safe_get_0 x b : safe_get (x :: b) 0 = Byte.to_N x.
Proof. reflexivity. Qed.

Lemma safe_get_S_pos b i : safe_get b i <> 0 -> exists x, nth_error b i = Some x /\ safe_get b i = Byte.to_N x.
Proof. unfold safe_get. destruct (nth_error b i); [eauto|congruence]. Qed.

Lemma is_cont_spec x : is_cont x = true <-> 0x80 <= x /\ x < 0xc0.
Proof. unfold is_cont. rewrite andb_true_iff, N.leb_le, N.ltb_lt. reflexivity. Qed.
Lemma in_range_spec lo x hi : in_range lo x hi = true <-> lo <= x /\ x <= hi.
Proof. unfold in_range. rewrite andb_true_iff, !N.leb_le. reflexivity. Qed.

Lemma utf8_char_1 c : c < 0x80 -> utf8_char c = [byte_of c].
Proof. intros H. unfold utf8_char. now rewrite (proj2 (N.ltb_lt _ _) H). Qed.
Lemma utf8_char_2 c : 0x80 <= c -> c < 0x800 -> utf8_char c = [byte_of (0xc0 + c / 64); byte_of (0x80 + c mod 64)].
Proof. intros H1 H2. unfold utf8_char. now rewrite (proj2 (N.ltb_ge _ _) H1), (proj2 (N.ltb_lt _ _) H2). Qed.
Lemma utf8_char_3 c : 0x800 <= c -> c < 0x10000 ->
  utf8_char c = [byte_of (0xe0 + c / 4096); byte_of (0x80 + c / 64 mod 64); byte_of (0x80 + c mod 64)].
Proof.
  intros H1 H2. unfold utf8_char.
  rewrite (proj2 (N.ltb_ge c 0x80)) by lia. now rewrite (proj2 (N.ltb_ge _ _) H1), (proj2 (N.ltb_lt _ _) H2).
Qed.
Lemma utf8_char_4 c : 0x10000 <= c ->
  utf8_char c = [byte_of (0xf0 + c / 262144); byte_of (0x80 + c / 4096 mod 64); byte_of (0x80 + c / 64 mod 64); byte_of (0x80 + c mod 64)].
Proof.
  intros H1. unfold utf8_char.
  rewrite (proj2 (N.ltb_ge c 0x80)) by lia. rewrite (proj2 (N.ltb_ge c 0x800)) by lia. now rewrite (proj2 (N.ltb_ge _ _) H1).
Qed.

Lemma byte_of_eq n x : n = Byte.to_N x -> byte_of n = x.
Proof. intros ->. apply byte_of_to_N. Qed.

Lemma width_cases x : 128 <= x -> char_width x = (if x <? 0xc2 then 0 else if x <? 0xe0 then 2 else if x <? 0xf0 then 3 else if x <? 0xf5 then 4 else 0).
Proof. intros H. unfold char_width. now rewrite (proj2 (N.ltb_ge x 0x80)) by lia. Qed.

(** If the step reports a character, its bytes encode a scalar value. *)
Lemma step_ok_char b k : b <> [] -> utf8_step b = (k, true) -> exists c, scalar c /\ firstn k b = utf8_char c.
Proof.
  intros Hne. destruct b as [|x0 b]; [easy|]. unfold utf8_step. rewrite safe_get_0. cbv zeta.
  pose proof (to_N_bound x0) as B0.
  destruct (N.ltb_spec (Byte.to_N x0) 128) as [H0|H0].
  { intros [= <-]. exists (Byte.to_N x0). split; [left; lia|]. rewrite utf8_char_1, byte_of_to_N by lia. reflexivity. }
  rewrite width_cases by lia.
  destruct (N.ltb_spec (Byte.to_N x0) 0xc2) as [H1|H1]; [cbn [N.eqb Pos.eqb]; discriminate|].
  destruct (N.ltb_spec (Byte.to_N x0) 0xe0) as [H2|H2].
  { cbn [N.eqb Pos.eqb]. destruct (is_cont (safe_get (x0 :: b) 1)) eqn:C1; [|discriminate].
    intros [= <-]. apply is_cont_spec in C1.
    rewrite safe_get_cons in C1. destruct b as [|x1 b]; [cbn in C1; lia|]. rewrite safe_get_0 in C1.
    exists ((Byte.to_N x0 - 0xc0) * 64 + (Byte.to_N x1 - 0x80)).
    set (c := (Byte.to_N x0 - 0xc0) * 64 + (Byte.to_N x1 - 0x80)).
    assert (Hd : c / 64 = Byte.to_N x0 - 0xc0 /\ c mod 64 = Byte.to_N x1 - 0x80) by (unfold c; split; nlia).
    destruct Hd as [Hd Hm]. split; [left; unfold c; lia|].
    rewrite utf8_char_2, Hd, Hm by (unfold c; lia). cbn [firstn].
    rewrite !(byte_of_eq _ x0), !(byte_of_eq _ x1) by lia. reflexivity. }
  destruct (N.ltb_spec (Byte.to_N x0) 0xf0) as [H3|H3].
  { cbn [N.eqb Pos.eqb].
    destruct (_ || _) eqn:R; [|discriminate].
    destruct (is_cont (safe_get (x0 :: b) 2)) eqn:C2; [|discriminate].
    intros [= <-]. apply is_cont_spec in C2.
    rewrite !orb_true_iff, !andb_true_iff, !in_range_spec, !N.eqb_eq in R.
    rewrite !safe_get_cons in C2, R.
    destruct b as [|x1 b]; [cbn in C2; lia|]. rewrite safe_get_0 in R. rewrite safe_get_cons in C2.
    destruct b as [|x2 b]; [cbn in C2; lia|]. rewrite safe_get_0 in C2.
    set (y0 := Byte.to_N x0) in *. set (y1 := Byte.to_N x1) in *. set (y2 := Byte.to_N x2) in *.
    set (c := (y0 - 0xe0) * 4096 + (y1 - 0x80) * 64 + (y2 - 0x80)).
    assert (Hb : 0x80 <= y1 /\ y1 < 0xc0) by lia.
    assert (Hd : c / 4096 = y0 - 0xe0 /\ c / 64 mod 64 = y1 - 0x80 /\ c mod 64 = y2 - 0x80).
    { assert (c / 64 = (y0 - 0xe0) * 64 + (y1 - 0x80)) as Q by (unfold c; nlia).
      rewrite Q. unfold c. split; [nlia|split; nlia]. }
    destruct Hd as (Hd & Hm & Hn).
    exists c. split; [unfold scalar, c; lia|].
    rewrite utf8_char_3, Hd, Hm, Hn by (unfold c; lia). cbn [firstn].
    rewrite !(byte_of_eq _ x0), !(byte_of_eq _ x1), !(byte_of_eq _ x2) by (fold y0 y1 y2; lia). reflexivity. }
  destruct (N.ltb_spec (Byte.to_N x0) 0xf5) as [H4|H4]; [|cbn [N.eqb Pos.eqb]; discriminate].
  cbn [N.eqb Pos.eqb].
  destruct (_ || _) eqn:R; [|discriminate].
  destruct (is_cont (safe_get (x0 :: b) 2)) eqn:C2; [|discriminate].
  destruct (is_cont (safe_get (x0 :: b) 3)) eqn:C3; [|discriminate].
  intros [= <-]. apply is_cont_spec in C2, C3.
  rewrite !orb_true_iff, !andb_true_iff, !in_range_spec, !N.eqb_eq in R.
  rewrite !safe_get_cons in C2, C3, R.
  destruct b as [|x1 b]; [cbn in C2; lia|]. rewrite safe_get_0 in R. rewrite !safe_get_cons in C2, C3.
  destruct b as [|x2 b]; [cbn in C2; lia|]. rewrite safe_get_0 in C2. rewrite !safe_get_cons in C3.
  destruct b as [|x3 b]; [cbn in C3; lia|]. rewrite safe_get_0 in C3.
  set (y0 := Byte.to_N x0) in *. set (y1 := Byte.to_N x1) in *. set (y2 := Byte.to_N x2) in *. set (y3 := Byte.to_N x3) in *.
  set (c := (y0 - 0xf0) * 262144 + (y1 - 0x80) * 4096 + (y2 - 0x80) * 64 + (y3 - 0x80)).
  assert (Hb : 0x80 <= y1 /\ y1 < 0xc0) by lia.
  assert (Hd : c / 262144 = y0 - 0xf0 /\ c / 4096 mod 64 = y1 - 0x80 /\ c / 64 mod 64 = y2 - 0x80 /\ c mod 64 = y3 - 0x80).
  { assert (c / 64 = (y0 - 0xf0) * 4096 + (y1 - 0x80) * 64 + (y2 - 0x80)) as Q by (unfold c; nlia).
    assert (c / 4096 = (y0 - 0xf0) * 64 + (y1 - 0x80)) as Q' by (unfold c; nlia).
    rewrite Q, Q'. unfold c. split; [nlia|split; [nlia|split; nlia]]. }
  destruct Hd as (Hd & Hm & Hn & Ho).
  exists c. split; [unfold scalar, c; lia|].
  rewrite utf8_char_4, Hd, Hm, Hn, Ho by (unfold c; lia). cbn [firstn].
  rewrite !(byte_of_eq _ x0), !(byte_of_eq _ x1), !(byte_of_eq _ x2), !(byte_of_eq _ x3) by (fold y0 y1 y2 y3; lia). reflexivity.
Qed.

Lemma to_N_byte_of_small n : n < 256 -> Byte.to_N (byte_of n) = n.
Proof. intros H. rewrite to_N_byte_of. now apply N.mod_small. Qed.

(** On the encoding of a scalar value the step reports exactly it. *)
Lemma char_step c rest : scalar c -> utf8_step (utf8_char c ++ rest) = (length (utf8_char c), true).
Proof.
  intros Hs. assert (Hc : c < 0x110000) by (destruct Hs; lia).
  destruct (N.ltb_spec c 0x80) as [H1|H1].
  { rewrite utf8_char_1 by lia. unfold utf8_step. cbn [app length]. rewrite safe_get_0, to_N_byte_of_small by lia.
    now rewrite (proj2 (N.ltb_lt c 128)) by lia. }
  destruct (N.ltb_spec c 0x800) as [H2|H2].
  { rewrite utf8_char_2 by lia. cbn [app length].
    assert (Q : c / 64 < 32 /\ 2 <= c / 64) by nlia.
    assert (Q' : c mod 64 < 64) by nlia.
    unfold utf8_step. rewrite safe_get_cons, !safe_get_0, !to_N_byte_of_small by lia. cbv zeta.
    rewrite (proj2 (N.ltb_ge (0xc0 + c / 64) 128)), width_cases by lia.
    rewrite (proj2 (N.ltb_ge (0xc0 + c / 64) 0xc2)), (proj2 (N.ltb_lt (0xc0 + c / 64) 0xe0)) by lia. cbn [N.eqb Pos.eqb].
    rewrite (proj2 (is_cont_spec _)) by lia. reflexivity. }
  destruct (N.ltb_spec c 0x10000) as [H3|H3].
  { rewrite utf8_char_3 by lia. cbn [app length].
    assert (Q : c / 64 = c / 4096 * 64 + c / 64 mod 64) by nlia.
    assert (Q2 : c / 4096 < 16) by nlia.
    assert (Q3 : c / 64 mod 64 < 64) by nlia.
    assert (Q4 : c mod 64 < 64) by nlia.
    assert (Q5 : c = c / 64 * 64 + c mod 64) by nlia.
    unfold utf8_step. rewrite !safe_get_cons, !safe_get_0, !to_N_byte_of_small by lia. cbv zeta.
    set (a := c / 4096) in *. set (b := c / 64 mod 64) in *. set (d := c mod 64) in *.
    rewrite (proj2 (N.ltb_ge (0xe0 + a) 128)), width_cases by lia.
    rewrite (proj2 (N.ltb_ge (0xe0 + a) 0xc2)), (proj2 (N.ltb_ge (0xe0 + a) 0xe0)), (proj2 (N.ltb_lt (0xe0 + a) 0xf0)) by lia. cbn [N.eqb Pos.eqb].
    destruct (_ || _) eqn:R.
    - rewrite (proj2 (is_cont_spec _)) by lia. reflexivity.
    - exfalso. rewrite <- not_true_iff_false in R. apply R.
      rewrite !orb_true_iff, !andb_true_iff, !in_range_spec, !N.eqb_eq. destruct Hs; lia. }
  rewrite utf8_char_4 by lia. cbn [app length].
  assert (Q : c / 64 = c / 4096 * 64 + c / 64 mod 64) by nlia.
  assert (Q0 : c / 4096 = c / 262144 * 64 + c / 4096 mod 64) by nlia.
  assert (Q2 : c / 262144 < 5) by nlia.
  assert (Q3 : c / 64 mod 64 < 64) by nlia.
  assert (Q3' : c / 4096 mod 64 < 64) by nlia.
  assert (Q4 : c mod 64 < 64) by nlia.
  assert (Q5 : c = c / 64 * 64 + c mod 64) by nlia.
  unfold utf8_step. rewrite !safe_get_cons, !safe_get_0, !to_N_byte_of_small by lia. cbv zeta.
  set (a := c / 262144) in *. set (b := c / 4096 mod 64) in *. set (d := c / 64 mod 64) in *. set (e := c mod 64) in *.
  rewrite (proj2 (N.ltb_ge (0xf0 + a) 128)), width_cases by lia.
  rewrite (proj2 (N.ltb_ge (0xf0 + a) 0xc2)), (proj2 (N.ltb_ge (0xf0 + a) 0xe0)), (proj2 (N.ltb_ge (0xf0 + a) 0xf0)), (proj2 (N.ltb_lt (0xf0 + a) 0xf5)) by lia.
  cbn [N.eqb Pos.eqb].
  destruct (_ || _) eqn:R.
  - rewrite !(proj2 (is_cont_spec _)) by lia. reflexivity.
  - exfalso. rewrite <- not_true_iff_false in R. apply R.
    rewrite !orb_true_iff, !andb_true_iff, !in_range_spec, !N.eqb_eq. lia.
Qed.

Lemma utf8_char_nonempty c : (0 < length (utf8_char c))%nat.
Proof. unfold utf8_char. repeat destruct (_ <? _); cbn; lia. Qed.

Lemma step_pos b : (0 < fst (utf8_step b))%nat.
Proof.
  unfold utf8_step.
  repeat match goal with |- context[if ?x then _ else _] => destruct x end; cbn; lia.
Qed.

Lemma lossy_aux_valid n b : utf8 (lossy_aux n b).
Proof.
  revert b. induction n as [|n IH]; intros b; [exists []; auto|]. cbn [lossy_aux].
  destruct b as [|x b]; [exists []; auto|].
  destruct (utf8_step (x :: b)) as [k ok] eqn:St.
  destruct (IH (skipn k (x :: b))) as (cs & Hcs & E).
  rewrite E. destruct ok.
  - destruct (step_ok_char (x :: b) k ltac:(easy) St) as (c & Hc & Ec). exists (c :: cs). split; [constructor; auto|]. cbn [flat_map]. now rewrite Ec.
  - exists (0xfffd :: cs). split; [constructor; auto; right; lia|]. reflexivity.
Qed.

Lemma lossy_aux_id cs n : Forall scalar cs -> (length (flat_map utf8_char cs) <= n)%nat -> lossy_aux n (flat_map utf8_char cs) = flat_map utf8_char cs.
Proof.
  revert n. induction cs as [|c cs IH]; intros n H Hn; [destruct n; reflexivity|].
  inversion H; subst. cbn [flat_map] in *. pose proof (utf8_char_nonempty c) as P. rewrite app_length in Hn.
  destruct n as [|n]; [lia|]. cbn [lossy_aux].
  destruct (utf8_char c ++ flat_map utf8_char cs) eqn:E.
  - apply (f_equal (@length _)) in E. rewrite app_length in E. cbn in E. lia.
  - rewrite <- E, char_step by auto.
    rewrite firstn_app, firstn_all, Nat.sub_diag. cbn [firstn]. rewrite app_nil_r.
    rewrite skipn_app, skipn_all, Nat.sub_diag. cbn [skipn app]. rewrite IH; auto. lia.
Qed.

Lemma lossy_valid b : utf8 (from_utf8_lossy b).
Proof. apply lossy_aux_valid. Qed.
Lemma lossy_id b : utf8 b -> from_utf8_lossy b = b.
Proof. intros (cs & H & ->). apply lossy_aux_id; auto. Qed.

Lemma utf8_app a b : utf8 a -> utf8 b -> utf8 (a ++ b).
Proof. intros (x & Hx & ->) (y & Hy & ->). exists (x ++ y). split; [now apply Forall_app|now rewrite flat_map_app]. Qed.
