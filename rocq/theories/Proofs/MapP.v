(** Lemmas about association lists. *)
From Verif Require Import Model.Base Model.Map.

Section M.
Context {K V : Type} {E : EqDec K}.
Implicit Types (m : list (K * V)) (k : K).

Lemma mget_set_eq k v m : mget k (mset k v m) = Some v.
Proof. induction m as [|[k' v'] m IH]; cbn; [destruct (eq_dec k k); congruence|].
  destruct (eq_dec k k') as [e|e]; cbn; [destruct (eq_dec k k); congruence|]. destruct (eq_dec k k'); congruence. Qed.

Lemma mget_set_ne k k' v m : k <> k' -> mget k (mset k' v m) = mget k m.
Proof. intros N. induction m as [|[a b] m IH]; cbn; [destruct (eq_dec k k'); congruence|].
  destruct (eq_dec k' a) as [e|e]; cbn; [|destruct (eq_dec k a); congruence].
  subst. destruct (eq_dec k a); congruence. Qed.

Lemma mget_set k k' v m : mget k (mset k' v m) = if eq_dec k k' then Some v else mget k m.
Proof. destruct (eq_dec k k') as [->|]; [apply mget_set_eq|apply mget_set_ne; assumption]. Qed.

Lemma mget_del_eq k m : mget k (mdel k m) = None.
Proof. induction m as [|[a b] m IH]; cbn; [reflexivity|]. destruct (eq_dec k a); cbn; [assumption|].
  destruct (eq_dec k a); congruence. Qed.

Lemma mget_del_ne k k' m : k <> k' -> mget k (mdel k' m) = mget k m.
Proof. intros N. induction m as [|[a b] m IH]; cbn; [reflexivity|]. destruct (eq_dec k' a) as [e|e]; cbn.
  - subst. destruct (eq_dec k a); congruence.
  - destruct (eq_dec k a); congruence. Qed.

Lemma mget_del k k' m : mget k (mdel k' m) = if eq_dec k k' then None else mget k m.
Proof. destruct (eq_dec k k') as [->|]; [apply mget_del_eq|apply mget_del_ne; assumption]. Qed.

Lemma mget_none_all m : (forall k, mget k m = None) -> m = [].
Proof. destruct m as [|[a b] m]; [reflexivity|]. intros H. specialize (H a). cbn in H. destruct (eq_dec a a); congruence. Qed.

Lemma mget_in k v m : mget k m = Some v -> In (k, v) m.
Proof. induction m as [|[a b] m IH]; cbn; [discriminate|]. destruct (eq_dec k a) as [->|]; [|intros H; right; auto].
  intros H; inversion H; left; reflexivity. Qed.

Lemma mget_keys k m : In k (mkeys m) <-> mget k m <> None.
Proof. induction m as [|[a b] m IH]; cbn; [tauto|]. destruct (eq_dec k a) as [->|N].
  - split; [discriminate|left; reflexivity].
  - rewrite <- IH. split; [intros [e|]; [congruence|assumption]|right; assumption]. Qed.

Lemma mget_not_keys k m : ~ In k (mkeys m) <-> mget k m = None.
Proof. rewrite mget_keys. destruct (mget k m); split; [intros H; exfalso; apply H; discriminate|congruence|reflexivity|congruence]. Qed.

Lemma mkeys_set k v m : mkeys (mset k v m) = if mem k m then mkeys m else mkeys m ++ [k].
Proof. unfold mem, mkeys. induction m as [|[a b] m IH]; cbn; [reflexivity|].
  destruct (eq_dec k a) as [->|]; cbn; [reflexivity|]. rewrite IH. destruct (mget k m); reflexivity. Qed.

Lemma in_mkeys_del k k' m : In k (mkeys (mdel k' m)) <-> In k (mkeys m) /\ k <> k'.
Proof. rewrite !mget_keys, mget_del. destruct (eq_dec k k'); intuition congruence. Qed.

Lemma in_mkeys_set k k' v m : In k (mkeys (mset k' v m)) <-> In k (mkeys m) \/ k = k'.
Proof. rewrite !mget_keys, mget_set. destruct (eq_dec k k'); intuition congruence. Qed.

Lemma nodup_set k v m : NoDup (mkeys m) -> NoDup (mkeys (mset k v m)).
Proof. intros H. rewrite mkeys_set. unfold mem. destruct (mget k m) eqn:G; [assumption|].
  apply mget_not_keys in G. clear v. induction (mkeys m) as [|a l IH]; cbn.
  - constructor; [easy|constructor].
  - inversion H; subst. constructor.
    + rewrite in_app_iff. cbn. intros [?|[->|[]]]; [contradiction|]. apply G. left; reflexivity.
    + apply IH; [assumption|]. intros ?; apply G; right; assumption. Qed.

Lemma nodup_del k m : NoDup (mkeys m) -> NoDup (mkeys (mdel k m)).
Proof. induction m as [|[a b] m IH]; cbn; [auto|]. intros H; inversion H; subst.
  destruct (eq_dec k a); [auto|]. cbn. constructor; [|auto]. intros HI.
  apply in_mkeys_del in HI. tauto. Qed.

Lemma in_mget k v m : NoDup (mkeys m) -> In (k, v) m -> mget k m = Some v.
Proof. induction m as [|[a b] m IH]; cbn; [easy|]. intros H; inversion H; subst. intros [e|e].
  - inversion e; subst. destruct (eq_dec k k); congruence.
  - destruct (eq_dec k a) as [->|]; [|auto]. exfalso. apply H2. apply (in_map fst) in e. exact e. Qed.

Lemma length_del_none k m : mget k m = None -> mdel k m = m.
Proof. induction m as [|[a b] m IH]; cbn; [reflexivity|]. destruct (eq_dec k a); [discriminate|]. intros H; rewrite IH; auto. Qed.

Lemma length_del_some k v m : NoDup (mkeys m) -> mget k m = Some v -> length m = S (length (mdel k m)).
Proof. induction m as [|[a b] m IH]; cbn; [discriminate|]. intros H; inversion H; subst.
  destruct (eq_dec k a) as [->|].
  - intros _. rewrite length_del_none; [reflexivity|]. apply mget_not_keys. assumption.
  - intros G. cbn. f_equal. auto. Qed.

Lemma length_set k v m : length (mset k v m) = if mem k m then length m else S (length m).
Proof. unfold mem. induction m as [|[a b] m IH]; cbn; [reflexivity|]. destruct (eq_dec k a); cbn; [reflexivity|].
  rewrite IH. destruct (mget k m); reflexivity. Qed.

Lemma smem_true (k : K) s : smem k s = true <-> In k s.
Proof. unfold smem. destruct (in_dec eq_dec k s); intuition congruence. Qed.
Lemma smem_false (k : K) s : smem k s = false <-> ~ In k s.
Proof. unfold smem. destruct (in_dec eq_dec k s); intuition congruence. Qed.
Lemma in_sins (k a : K) s : In k (sins a s) <-> In k s \/ k = a.
Proof. unfold sins. destruct (smem a s) eqn:M.
  - apply smem_true in M. split; [tauto|intros [| ->]; assumption].
  - rewrite in_app_iff; cbn. intuition congruence. Qed.
Lemma in_sdel (k a : K) s : In k (sdel a s) <-> In k s /\ k <> a.
Proof. unfold sdel. split.
  - intros H. apply in_remove in H. tauto.
  - intros [H N]. apply in_in_remove; congruence. Qed.
Lemma nodup_sins (a : K) s : NoDup s -> NoDup (sins a s).
Proof. intros H. unfold sins. destruct (smem a s) eqn:M; [assumption|]. apply smem_false in M.
  clear -H M. induction s as [|b s IH]; cbn; [repeat constructor; easy|]. inversion H; subst. constructor.
  - rewrite in_app_iff. cbn. intros [?|[->|[]]]; [contradiction|]. apply M; left; reflexivity.
  - apply IH; [assumption|]. intros ?; apply M; right; assumption. Qed.
Lemma nodup_sdel (a : K) s : NoDup s -> NoDup (sdel a s).
Proof. unfold sdel. induction s as [|b s IH]; cbn; [auto|]. intros H; inversion H; subst. destruct (eq_dec a b); [auto|].
  constructor; [|auto]. intros X. apply in_remove in X. tauto. Qed.
End M.
