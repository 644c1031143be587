(** The publisher's connection accounting. *)
From Coq Require Import ZArith ZifyBool ZifyNat ZifyN Permutation Sorting.Sorted.
From Verif Require Import Model.Base Model.Map Model.WirePubSub Model.Compression Model.Stats Model.Framed Model.WireAuth
  Model.Handshake Model.Trie Model.Utf8 Model.PubDriver Spec.CompressSpec Spec.PubSpec Proofs.BaseP Proofs.MapP Proofs.PubDriverP Proofs.PubDriverP2.
Local Open Scope N_scope.

Lemma NoDup_app_remove_l {A} (a b : list A) : NoDup (a ++ b) -> NoDup b.
Proof. induction a as [|x a IH]; [auto|]. cbn. inversion 1; auto. Qed.
Lemma NoDup_app_remove_r {A} (a b : list A) : NoDup (a ++ b) -> NoDup a.
Proof. induction a as [|x a IH]; [constructor|]. cbn. inversion 1; subst. constructor; [rewrite in_app_iff in *; tauto|auto]. Qed.

Definition qconns (s : pb) : list N := pb_conns s ++ pb_auths s ++ mkeys (pb_sess s).

Record inv1 (L : list qout) (s : pb) : Prop := mkInv1 {
  i1_perm : Permutation (sub_admitted L) (qconns s ++ sub_ended L);
  i1_nodup : NoDup (sub_admitted L);
  i1_next : forall c, In c (sub_admitted L) -> c < pb_next_cid s;
  i1_active : pb_active s = wrap64 (blen (qconns s) + blen (sub_leaked L)) }.

Lemma blen_perm {A} (a b : list A) : Permutation a b -> blen a = blen b.
Proof. intros H. unfold blen. now rewrite (Permutation_length H). Qed.
Lemma wrap64_decr n : 0 < n -> wrap64 (wrap64 n + (2 ^ 64 - 1)) = wrap64 (n - 1).
Proof.
  intros H. unfold wrap64. rewrite N.add_mod_idemp_l by lia.
  replace (n + (2 ^ 64 - 1)) with (n - 1 + 1 * 2 ^ 64) by lia. now rewrite N.mod_add by lia.
Qed.
Lemma wrap64_incr n : wrap64 (wrap64 n + 1) = wrap64 (n + 1).
Proof. unfold wrap64. now rewrite N.add_mod_idemp_l by lia. Qed.

Lemma inv1_same L s o s' : inv1 L s -> Permutation (qconns s) (qconns s') -> pb_next_cid s' = pb_next_cid s -> pb_active s' = pb_active s ->
  sub_admitted o = [] -> sub_ended o = [] -> sub_leaked o = [] -> inv1 (L ++ o) s'.
Proof.
  intros [A B C D] P Nx Ac E1 E2 E3. constructor; rewrite ?sub_admitted_app, ?sub_ended_app, ?sub_leaked_app, ?E1, ?E2, ?E3, ?app_nil_r, ?Nx, ?Ac; auto.
  - rewrite A. now apply Permutation_app_tail.
  - now rewrite <- (blen_perm _ _ P).
Qed.
Lemma inv1_end L s o s' c : inv1 L s -> Permutation (qconns s) (c :: qconns s') -> pb_next_cid s' = pb_next_cid s ->
  sub_admitted o = [] -> sub_ended o = [c] ->
  (sub_leaked o = [] /\ pb_active s' = wrap64 (pb_active s + (2 ^ 64 - 1)) \/ sub_leaked o = [c] /\ pb_active s' = pb_active s) -> inv1 (L ++ o) s'.
Proof.
  intros [A B C D] P Nx E1 E2 E3. constructor; rewrite ?sub_admitted_app, ?sub_ended_app, ?sub_leaked_app, ?E1, ?E2, ?app_nil_r, ?Nx; auto.
  - rewrite A. rewrite P. cbn [app]. rewrite app_assoc. rewrite <- Permutation_cons_append. reflexivity.
  - apply blen_perm in P. rewrite blen_cons in P. destruct E3 as [[-> ->]|[-> ->]].
    + rewrite app_nil_r, D, wrap64_decr by lia. f_equal. lia.
    + rewrite D. f_equal. rewrite blen_app, P. change (blen [c]) with 1. lia.
Qed.
Lemma nth_split_perm {A} (l : list A) k x : nth_error l k = Some x -> Permutation l (x :: firstn k l ++ skipn (S k) l).
Proof.
  revert k. induction l as [|y l IH]; intros [|k] H; cbn in H; try discriminate.
  - injection H as ->. reflexivity.
  - cbn [firstn skipn app]. rewrite (IH k H) at 1. apply perm_swap.
Qed.
Lemma qdrop_auth_perm s k cid : nth_error (pb_auths s) k = Some cid -> Permutation (qconns s) (cid :: qconns (qdrop_auth s k)).
Proof.
  intros H. unfold qconns, qdrop_auth. cbn [pb_conns pb_auths pb_sess]. rewrite (nth_split_perm _ _ _ H) at 1.
  cbn [app]. symmetry. apply Permutation_middle.
Qed.
Lemma qdrop_conn_perm s k cid : nth_error (pb_conns s) k = Some cid -> Permutation (qconns s) (cid :: qconns (qdrop_conn s k)).
Proof. intros H. unfold qconns, qdrop_conn. cbn [pb_conns pb_auths pb_sess]. rewrite (nth_split_perm _ _ _ H) at 1. reflexivity. Qed.

Lemma mkeys_mset_same {V} (cid : N) (x : V) m v : mget cid m = Some v -> mkeys (mset cid x m) = mkeys m.
Proof. intros H. rewrite mkeys_set. unfold mem. now rewrite H. Qed.
Lemma mkeys_mset_new {V} (cid : N) (x : V) m : mget cid m = None -> mkeys (mset cid x m) = mkeys m ++ [cid].
Proof. intros H. rewrite mkeys_set. unfold mem. now rewrite H. Qed.
Lemma mkeys_mdel_perm {V} (cid : N) (m : list (N * V)) v : NoDup (mkeys m) -> mget cid m = Some v -> Permutation (mkeys m) (cid :: mkeys (mdel cid m)).
Proof.
  induction m as [|[k w] m IH]; intros Nd G; [discriminate|]. cbn [mget mdel mkeys map] in *. inversion Nd; subst.
  destruct (eq_dec cid k) as [->|Ne].
  - rewrite length_del_none; [reflexivity|]. apply mget_not_keys. auto.
  - cbn [map fst]. unfold mkeys in *. rewrite (IH H2 G) at 1. apply perm_swap.
Qed.

Section P.
Variables (max : option N) (buf : N) (auth : option (bytes -> bool)).

Lemma inv1_nodup_conns L s : inv1 L s -> NoDup (qconns s ++ sub_ended L).
Proof using. intros [A B _ _]. now rewrite <- A. Qed.
Lemma inv1_keys L s : inv1 L s -> NoDup (mkeys (pb_sess s)).
Proof using.
  intros H. apply inv1_nodup_conns in H. unfold qconns in H. rewrite <- !app_assoc in H.
  apply NoDup_app_remove_l in H. apply NoDup_app_remove_l in H. now apply NoDup_app_remove_r in H.
Qed.
Lemma nodup_app_disj {A} (a b : list A) x : NoDup (a ++ b) -> In x a -> ~ In x b.
Proof using.
  induction a as [|y a IH]; intros H; [easy|]. cbn in H. inversion H; subst. intros [->|Hx] Hb; [apply H2, in_or_app; auto|]. now apply IH.
Qed.
Lemma inv1_disj L s c : inv1 L s -> In c (qconns s) -> ~ In c (sub_ended L).
Proof using. intros H Hc. apply inv1_nodup_conns in H. now apply (nodup_app_disj _ _ _ H). Qed.
Lemma inv1_auth_new L s k cid : inv1 L s -> nth_error (pb_auths s) k = Some cid -> mget cid (pb_sess s) = None /\ ~ In cid (sub_ended L).
Proof using.
  intros H E. apply nth_error_In in E. split.
  - apply mget_not_keys. apply inv1_nodup_conns in H. unfold qconns in H. rewrite <- !app_assoc in H. apply NoDup_app_remove_l in H.
    rewrite app_assoc in H. apply NoDup_app_remove_r in H. now apply (nodup_app_disj _ _ _ H).
  - apply (inv1_disj L s); auto. unfold qconns. rewrite !in_app_iff. auto.
Qed.
Lemma inv1_conn_new L s k cid : inv1 L s -> nth_error (pb_conns s) k = Some cid -> mget cid (pb_sess s) = None /\ ~ In cid (sub_ended L).
Proof using.
  intros H E. apply nth_error_In in E. split.
  - apply mget_not_keys. apply inv1_nodup_conns in H. unfold qconns in H. apply NoDup_app_remove_r in H.
    intros Hk. apply (nodup_app_disj _ _ _ H E). apply in_or_app. auto.
  - apply (inv1_disj L s); auto. unfold qconns. rewrite !in_app_iff. auto.
Qed.

Lemma qconns_open cid s : mget cid (pb_sess s) = None -> Permutation (cid :: qconns s) (qconns (fst (pb_open cid s))).
Proof using.
  intros H. unfold qconns, pb_open. cbn [fst pb_conns pb_auths pb_sess]. rewrite mkeys_mset_new by auto.
  rewrite !app_assoc. apply Permutation_cons_append.
Qed.

Lemma qconns_del L s cid x d : inv1 L s -> mget cid (pb_sess s) = Some x -> Permutation (qconns s) (cid :: qconns (pb_decr (set_sess s (mdel cid (pb_sess s)) d))).
Proof using.
  intros H G. unfold qconns, pb_decr, pb_with_active, set_sess. cbn [pb_conns pb_auths pb_sess].
  rewrite (mkeys_mdel_perm cid (pb_sess s) x (inv1_keys _ _ H) G) at 1.
  rewrite app_assoc, app_assoc. symmetry. apply Permutation_middle.
Qed.

Lemma sstep_marks cid hist x o d x' : sstep buf cid hist x o d x' -> sub_admitted o = [] /\ sub_ended o = [] /\ sub_leaked o = [].
Proof using. destruct 1; auto. Qed.

Lemma inv1_prim L s o s' : inv1 L s -> qprim max buf auth s o s' -> inv1 (L ++ o) s'.
Proof using.
  intros I P. destruct P as [cid x o d x' G St|cid x G|cid x m G Pm|cid x p G _ _ _ _ _ _|k cid au input ok id w rest G A S|k cid au input ok w rest G A S|
    k cid au input ok w rest G A S|k cid G|k cid G A|k cid G A|m M Le|M|m C| |C|].
  - destruct (sstep_marks _ _ _ _ _ _ St) as (E1 & E2 & E3). apply (inv1_same L s); auto.
    unfold qconns, set_sess. cbn [pb_conns pb_auths pb_sess]. now rewrite (mkeys_mset_same _ _ _ _ G).
  - apply (inv1_end L s _ _ cid); auto. eapply qconns_del; eauto.
  - apply (inv1_end L s _ _ cid); auto. eapply qconns_del; eauto.
  - apply (inv1_end L s _ _ cid); auto. eapply qconns_del; eauto.
  - apply (inv1_same L s); auto. rewrite <- qconns_open; [now apply qdrop_auth_perm|]. apply (inv1_auth_new L s k cid I G).
  - apply (inv1_end L s _ _ cid); auto. unfold pb_decr, qconns, pb_with_active. cbn [pb_conns pb_auths pb_sess]. now apply qdrop_auth_perm.
  - apply (inv1_end L s _ _ cid); auto. now apply qdrop_auth_perm.
  - apply (inv1_end L s _ _ cid); auto. unfold pb_decr, qconns, pb_with_active. cbn [pb_conns pb_auths pb_sess]. now apply qdrop_conn_perm.
  - apply (inv1_same L s); auto. rewrite (qdrop_conn_perm _ _ _ G). unfold qconns, qadd_auth, qdrop_conn. cbn [pb_conns pb_auths pb_sess].
    rewrite <- !app_assoc. cbn [app]. rewrite !app_assoc. apply Permutation_middle.
  - apply (inv1_same L s); auto. rewrite <- qconns_open; [now apply qdrop_conn_perm|]. apply (inv1_conn_new L s k cid I G).
  - apply (inv1_same L s); auto.
  - destruct I as [I1 I2 I3 I4].
    assert (Q : Permutation (qconns (pb_incr (qadd_conn s))) (pb_next_cid s :: qconns s)).
    { unfold qconns, pb_incr, qadd_conn, pb_with_active. cbn [pb_conns pb_auths pb_sess]. rewrite <- app_assoc. symmetry. apply Permutation_middle. }
    constructor; rewrite ?sub_admitted_app, ?sub_ended_app, ?sub_leaked_app; cbn [sub_admitted sub_ended sub_leaked flat_map app]; rewrite ?app_nil_r.
    + rewrite Q. cbn [app]. rewrite <- I1. symmetry. apply Permutation_cons_append.
    + rewrite <- Permutation_cons_append. constructor; auto. intros H. apply I3 in H. lia.
    + intros c Hc. apply in_app_or in Hc. cbn [pb_incr pb_with_active pb_next_cid qadd_conn]. destruct Hc as [Hc|[<-|[]]]; [apply I3 in Hc; lia|lia].
    + cbn [pb_incr pb_with_active pb_active qadd_conn]. rewrite I4, wrap64_incr, (blen_perm _ _ Q), blen_cons. f_equal. lia.
  - apply (inv1_same L s); auto.
  - apply (inv1_same L s); auto.
  - apply (inv1_same L s); auto.
  - apply (inv1_same L s); auto.
Qed.

Lemma inv1_init : inv1 [] pb_init.
Proof using. constructor; [reflexivity|constructor|easy|reflexivity]. Qed.
Lemma run_inv1 min co evs s L : pb_run max buf min auth co pb_init evs = (s, L) -> inv1 L s.
Proof. apply run_inv; [apply inv1_init|]. intros; eapply inv1_prim; eauto. Qed.

Lemma live_perm L s : inv1 L s -> Permutation (sub_live L) (qconns s).
Proof using.
  intros I. unfold sub_live. pose proof (inv1_nodup_conns _ _ I) as Nd. destruct I as [P _ _ _].
  apply NoDup_Permutation.
  - apply NoDup_filter. now rewrite P.
  - now apply NoDup_app_remove_r in Nd.
  - intros c. rewrite filter_In, negb_true_iff, smem_false. split.
    + intros [H1 H2]. rewrite P in H1. apply in_app_or in H1. tauto.
    + intros H. split; [rewrite P; apply in_or_app; auto|]. now apply (nodup_app_disj _ _ _ Nd).
Qed.

(** ** max_clients *)
Definition qcap (lim : N) (L : list qout) (s : pb) : Prop := blen (qconns s) + blen (sub_leaked L) <= lim.

Lemma qcap_prim lim L s o s' : max = Some lim -> lim < 2 ^ 64 -> inv1 L s -> qcap lim L s -> qprim max buf auth s o s' -> qcap lim (L ++ o) s'.
Proof using.
  intros Mx Lt I H P. pose proof (inv1_prim _ _ _ _ I P) as I'. unfold qcap in *.
  rewrite sub_leaked_app, blen_app.
  assert (Same : Permutation (qconns s) (qconns s') -> sub_leaked o = [] -> blen (qconns s') + (blen (sub_leaked L) + blen (sub_leaked o)) <= lim).
  { intros Q ->. apply blen_perm in Q. change (blen (@nil N)) with 0. lia. }
  assert (End : forall c, Permutation (qconns s) (c :: qconns s') -> (length (sub_leaked o) <= 1)%nat -> blen (qconns s') + (blen (sub_leaked L) + blen (sub_leaked o)) <= lim).
  { intros c Q Hl. apply blen_perm in Q. rewrite blen_cons in Q. assert (blen (sub_leaked o) <= 1) by (unfold blen; lia). lia. }
  destruct P as [cid x o d x' G St|cid x G|cid x m G Pm|cid x p G _ _ _ _ _ _|k cid au input ok id w rest G A S|k cid au input ok w rest G A S|
    k cid au input ok w rest G A S|k cid G|k cid G A|k cid G A|m M Le|M|m C| |C|].
  - destruct (sstep_marks _ _ _ _ _ _ St) as (E1 & E2 & E3). apply Same; auto.
    unfold qconns, set_sess. cbn [pb_conns pb_auths pb_sess]. now rewrite (mkeys_mset_same _ _ _ _ G).
  - apply (End cid); auto. eapply qconns_del; eauto.
  - apply (End cid); auto. eapply qconns_del; eauto.
  - apply (End cid); auto. eapply qconns_del; eauto.
  - apply Same; auto. rewrite <- qconns_open; [now apply qdrop_auth_perm|]. apply (inv1_auth_new L s k cid I G).
  - apply (End cid); auto. unfold pb_decr, qconns, pb_with_active. cbn [pb_conns pb_auths pb_sess]. now apply qdrop_auth_perm.
  - apply (End cid); auto. now apply qdrop_auth_perm.
  - apply (End cid); auto. unfold pb_decr, qconns, pb_with_active. cbn [pb_conns pb_auths pb_sess]. now apply qdrop_conn_perm.
  - apply Same; auto. rewrite (qdrop_conn_perm _ _ _ G). unfold qconns, qadd_auth, qdrop_conn. cbn [pb_conns pb_auths pb_sess].
    rewrite <- !app_assoc. cbn [app]. rewrite !app_assoc. apply Permutation_middle.
  - apply Same; auto. rewrite <- qconns_open; [now apply qdrop_conn_perm|]. apply (inv1_conn_new L s k cid I G).
  - apply Same; auto.
  - specialize (M _ Mx). destruct I as [_ _ _ I4]. unfold wrap64 in I4. rewrite N.mod_small in I4 by lia.
    assert (Q : Permutation (qconns (pb_incr (qadd_conn s))) (pb_next_cid s :: qconns s)).
    { unfold qconns, pb_incr, qadd_conn, pb_with_active. cbn [pb_conns pb_auths pb_sess]. rewrite <- app_assoc. symmetry. apply Permutation_middle. }
    rewrite (blen_perm _ _ Q), blen_cons. change (blen (sub_leaked [QAccepted (pb_next_cid s)])) with 0. lia.
  - apply Same; auto.
  - apply Same; auto.
  - apply Same; auto.
  - apply Same; auto.
Qed.
Lemma run_qcap min co lim evs s L : max = Some lim -> lim < 2 ^ 64 -> pb_run max buf min auth co pb_init evs = (s, L) -> inv1 L s /\ qcap lim L s.
Proof.
  intros Mx Lt. apply (run_inv max buf min auth co (fun L s => inv1 L s /\ qcap lim L s)); [split; [apply inv1_init|unfold qcap; cbn; lia]|].
  intros L' s1 o s2 [I C] P. split; [eapply inv1_prim; eauto|eapply qcap_prim; eauto].
Qed.
End P.
