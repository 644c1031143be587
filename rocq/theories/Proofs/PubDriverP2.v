(** The publisher's sessions: order, lag, filter. *)
From Coq Require Import ZArith ZifyBool ZifyNat ZifyN Permutation Sorting.Sorted.
From Verif Require Import Model.Base Model.Map Model.WirePubSub Model.Compression Model.Stats Model.Framed Model.WireAuth
  Model.Handshake Model.Trie Model.Utf8 Model.PubDriver Spec.CompressSpec Spec.PubSpec Proofs.BaseP Proofs.MapP Proofs.PubDriverP.
Local Open Scope N_scope.

Lemma split_app_one {A} (L before after : list A) x y : L ++ [y] = before ++ x :: after ->
  (exists a, after = a ++ [y] /\ L = before ++ x :: a) \/ (x = y /\ before = L /\ after = []).
Proof.
  intros H.
  destruct after as [|z after'] using rev_ind.
  - right. apply app_inj_tail in H. destruct H as [-> ->]. auto.
  - left. rewrite app_comm_cons, app_assoc in H. apply app_inj_tail in H. destruct H as [H ->]. exists after'. auto.
Qed.
Lemma split_app_list {A} (o : list A) : forall L before after x, L ++ o = before ++ x :: after ->
  (exists a, after = a ++ o /\ L = before ++ x :: a) \/ (exists b a, o = b ++ x :: a /\ before = L ++ b /\ after = a).
Proof.
  intros L. induction L as [|l L IH]; intros before after x H.
  - right. cbn in H. subst. exists before, after. auto.
  - destruct before as [|b before]; cbn in H; injection H as <- H.
    + left. exists L. auto.
    + destruct (IH _ _ _ H) as [(a & -> & ->)|(b' & a & -> & -> & ->)]; [left; eauto|right; eauto 6].
Qed.

Lemma published_app a b : published (a ++ b) = published a ++ published b. Proof. apply flat_map_app. Qed.
Lemma sent_to_app c a b : sent_to c (a ++ b) = sent_to c a ++ sent_to c b. Proof. apply flat_map_app. Qed.
Lemma ops_of_app c a b : ops_of c (a ++ b) = ops_of c a ++ ops_of c b. Proof. apply flat_map_app. Qed.
Lemma sub_ended_app a b : sub_ended (a ++ b) = sub_ended a ++ sub_ended b. Proof. apply flat_map_app. Qed.
Lemma sub_admitted_app a b : sub_admitted (a ++ b) = sub_admitted a ++ sub_admitted b. Proof. apply flat_map_app. Qed.
Lemma sub_leaked_app a b : sub_leaked (a ++ b) = sub_leaked a ++ sub_leaked b. Proof. apply flat_map_app. Qed.
Lemma sent_frames_app a b : sent_frames (a ++ b) = sent_frames a ++ sent_frames b. Proof. apply flat_map_app. Qed.

(** Events of the session of [cid]. *)
Definition sess_ev (cid : N) (x : qout) : Prop :=
  match x with QOpen c | QTook c _ | QSkipped c _ _ | QControl c _ _ | QHanded c _ _ => c = cid | _ => False end.
Definition silent (cid : N) (l : list qout) : Prop := forall x, In x l -> ~ sess_ev cid x.

Lemma silent_app cid a b : silent cid (a ++ b) <-> silent cid a /\ silent cid b.
Proof.
  unfold silent. split; [intros H; split; intros x Hx; apply H, in_or_app; auto|].
  intros [H1 H2] x Hx. apply in_app_or in Hx. destruct Hx; auto.
Qed.
Lemma silent_sent cid l : silent cid l -> sent_to cid l = [].
Proof.
  unfold silent. induction l as [|x l IH]; intros H; [reflexivity|]. cbn [sent_to flat_map].
  fold (sent_to cid l). rewrite IH by (intros y Hy; apply H; now right).
  specialize (H x (or_introl eq_refl)). destruct x; auto. destruct (eq_dec cid0 cid); [subst; now cbn in H|reflexivity].
Qed.
Lemma silent_ops cid l : silent cid l -> ops_of cid l = [].
Proof.
  unfold silent. induction l as [|x l IH]; intros H; [reflexivity|]. cbn [ops_of flat_map].
  fold (ops_of cid l). rewrite IH by (intros y Hy; apply H; now right).
  specialize (H x (or_introl eq_refl)). destruct x; auto. destruct o; auto. destruct (eq_dec cid0 cid); [subst; now cbn in H|reflexivity].
Qed.

Lemma message_app L o i p : message L i = Some p -> message (L ++ o) i = Some p.
Proof.
  unfold message. rewrite published_app. intros H. rewrite nth_error_app1; [exact H|]. apply nth_error_Some. congruence.
Qed.
Lemma message_lt L i p : message L i = Some p -> i < blen (published L).
Proof. unfold message, blen. intros H. assert (N.to_nat i < length (published L))%nat by (apply nth_error_Some; congruence). lia. Qed.
Lemma message_mono L o i p : message (L ++ o) i = Some p -> i < blen (published L) -> message L i = Some p.
Proof.
  unfold message, blen. rewrite published_app. intros H Hi. rewrite nth_error_app1 in H by lia. exact H.
Qed.

(** Every message read had been published. *)
Definition took_pub (L : list qout) : Prop := forall c i, In (QTook c i) L -> i < blen (published L).

Lemma due_app_old cid L o i : took_pub L -> (forall c i, In (QTook c i) o -> c <> cid) -> due cid (L ++ o) i <-> due cid L i.
Proof.
  intros TP Ho. split.
  - intros (b & a & p & E & M & C). destruct (split_app_list o _ _ _ _ E) as [(a' & -> & ->)|(b' & a' & -> & -> & ->)].
    + exists b, a', p. split; [reflexivity|]. split; [|exact C]. eapply message_mono; [exact M|]. apply (TP cid i), in_or_app. right. now left.
    + exfalso. apply (Ho cid i); [|reflexivity]. apply in_or_app. right. now left.
  - intros (b & a & p & -> & M & C). exists b, (a ++ o), p. split; [now rewrite <- app_assoc, app_comm_cons|]. split; [now apply message_app|exact C].
Qed.

Lemma due_app_took cid L j p i : took_pub L -> message L j = Some p ->
  due cid (L ++ [QTook cid j]) i <-> due cid L i \/ (i = j /\ trie_contains (trie_run (ops_of cid L)) (pm_topic p) = true).
Proof.
  intros TP Mj. split.
  - intros (b & a & q & E & M & C). destruct (split_app_one _ _ _ _ _ E) as [(a' & -> & ->)|(Ex & -> & ->)].
    + left. exists b, a', q. split; [reflexivity|]. split; [|exact C]. eapply message_mono; [exact M|]. apply (TP cid i), in_or_app. right. now left.
    + injection Ex as ->. right. split; [reflexivity|]. assert (q = p) by (apply (message_app _ [QTook cid j]) in Mj; congruence). now subst.
  - intros [(b & a & q & -> & M & C)|[-> C]].
    + exists b, (a ++ [QTook cid j]), q. split; [now rewrite <- app_assoc, app_comm_cons|]. split; [now apply message_app|exact C].
    + exists L, [], p. split; [reflexivity|]. split; [now apply message_app|exact C].
Qed.

Definition opt {A} (o : option A) : list A := match o with Some x => [x] | None => [] end.
Definition carry (L : list qout) (i : N) (m : ps_msg) : Prop := exists p, message L i = Some p /\ carries p m.
Definition seqs (n : nat) : list N := map (fun k => N.of_nat k mod 2 ^ 32) (seq 0 n).

Lemma seqs_S n : seqs (S n) = seqs n ++ [N.of_nat n mod 2 ^ 32].
Proof. unfold seqs. rewrite seq_S, map_app. reflexivity. Qed.

(** What holds of a running session. *)
Record sinv (L : list qout) (cid : N) (x : sess) : Prop := mkSinv {
  si_is : exists is, StronglySorted N.lt is /\ Forall (fun i => i < sn_pos x) is /\ (forall i, due cid L i <-> In i is) /\
            Forall2 (carry L) is (sent_to cid L ++ opt (sn_pending x));
  si_seqs : map ps_seq (sent_to cid L ++ opt (sn_pending x)) = seqs (length (sent_to cid L ++ opt (sn_pending x)));
  si_seq : sn_seq x = N.of_nat (length (sent_to cid L ++ opt (sn_pending x))) mod 2 ^ 32;
  si_filter : sn_filter x = trie_run (ops_of cid L);
  si_pos : sn_pos x <= blen (published L);
  si_took : forall i, In (QTook cid i) L -> i < sn_pos x;
  si_skip : forall a b, In (QSkipped cid a b) L -> b <= sn_pos x;
  si_cover : forall b a i, L = b ++ QOpen cid :: a -> blen (published b) <= i -> i < sn_pos x ->
               In (QTook cid i) L \/ exists u v, In (QSkipped cid u v) L /\ u <= i /\ i < v }.

(** What holds of a connection without a running session. *)
Definition winv (L : list qout) (cid : N) : Prop :=
  (exists is, StronglySorted N.lt is /\ Forall (due cid L) is /\ Forall2 (carry L) is (sent_to cid L)) /\
  map ps_seq (sent_to cid L) = seqs (length (sent_to cid L)).

Record tinv (buf : N) (L : list qout) (s : pb) : Prop := mkTinv {
  ti_hist : pb_hist s = published L;
  ti_took : took_pub L;
  ti_sess : forall cid x, mget cid (pb_sess s) = Some x -> sinv L cid x;
  ti_none : forall cid, mget cid (pb_sess s) = None -> winv L cid;
  ti_silent : forall cid, mget cid (pb_sess s) = None -> ~ In cid (sub_ended L) -> silent cid L;
  ti_skips : forall b cid x y a, L = b ++ QSkipped cid x y :: a ->
     x < y /\ y + bcast_cap buf = blen (published b) /\
     (forall i, In (QTook cid i) b -> i < x) /\ (forall i, In (QTook cid i) a -> y <= i) }.
