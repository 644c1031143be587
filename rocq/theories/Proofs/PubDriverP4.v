(** Preservation of the session invariants. *)
From Coq Require Import ZArith ZifyBool ZifyNat ZifyN Permutation Sorting.Sorted.
From Verif Require Import Model.Base Model.Map Model.WirePubSub Model.Compression Model.Stats Model.Framed Model.WireAuth
  Model.Handshake Model.Trie Model.Utf8 Model.PubDriver Spec.CompressSpec Spec.PubSpec Proofs.BaseP Proofs.MapP Proofs.PubDriverP Proofs.PubDriverP2 Proofs.PubDriverP3.
Local Open Scope N_scope.

Lemma Forall2_imp {A B} (P Q : A -> B -> Prop) l l' : (forall a b, P a b -> Q a b) -> Forall2 P l l' -> Forall2 Q l l'.
Proof. intros H. induction 1; constructor; auto. Qed.
Lemma carry_app L o i m : carry L i m -> carry (L ++ o) i m.
Proof. intros (p & M & C). exists p. split; [now apply message_app|exact C]. Qed.
Lemma silent_no_took cid o : silent cid o -> forall c i, In (QTook c i) o -> c <> cid.
Proof. intros H c i Hi ->. now apply (H _ Hi). Qed.

Lemma open_split_old L o b a cid : silent cid o -> L ++ o = b ++ QOpen cid :: a -> exists a', a = a' ++ o /\ L = b ++ QOpen cid :: a'.
Proof.
  intros S E. destruct (split_app_list o _ _ _ _ E) as [H|(b' & a' & -> & -> & ->)]; [exact H|].
  exfalso. apply (S (QOpen cid)); [apply in_or_app; right; now left|reflexivity].
Qed.

Lemma published_le L o : blen (published L) <= blen (published (L ++ o)).
Proof. rewrite published_app, blen_app. lia. Qed.

Lemma sinv_ext L o cid x : took_pub L -> sinv L cid x -> silent cid o -> sinv (L ++ o) cid x.
Proof.
  intros TP [(is & S1 & S2 & S3 & S4) B C D E F G H] S.
  assert (Q : sent_to cid (L ++ o) = sent_to cid L) by (rewrite sent_to_app, (silent_sent cid o S); apply app_nil_r).
  constructor; rewrite ?Q; auto.
  - exists is. split; [exact S1|]. split; [exact S2|]. split.
    + intros i. rewrite due_app_old; auto. now apply silent_no_took.
    + eapply Forall2_imp; [|exact S4]. intros; now apply carry_app.
  - rewrite ops_of_app, (silent_ops cid o S), app_nil_r. exact D.
  - pose proof (published_le L o). lia.
  - intros i Hi. apply in_app_or in Hi. destruct Hi as [Hi|Hi]; [auto|]. exfalso. now apply (S _ Hi).
  - intros a b Hi. apply in_app_or in Hi. destruct Hi as [Hi|Hi]; [eauto|]. exfalso. now apply (S _ Hi).
  - intros b a i E' Hb Hp. destruct (open_split_old _ _ _ _ _ S E') as (a' & -> & ->).
    destruct (H b a' i eq_refl Hb Hp) as [T|(u & v & T & R)]; [left; apply in_or_app; auto|right; exists u, v; split; [apply in_or_app; auto|exact R]].
Qed.

Lemma winv_ext L o cid : took_pub L -> winv L cid -> silent cid o -> winv (L ++ o) cid.
Proof.
  intros TP [(is & S1 & S2 & S3) B] S.
  assert (Q : sent_to cid (L ++ o) = sent_to cid L) by (rewrite sent_to_app, (silent_sent cid o S); apply app_nil_r).
  split; rewrite ?Q; auto. exists is. split; [exact S1|]. split.
  - eapply Forall_impl; [|exact S2]. intros i Hi. cbn. rewrite due_app_old; auto. now apply silent_no_took.
  - eapply Forall2_imp; [|exact S3]. intros; now apply carry_app.
Qed.

Lemma sorted_app_l (a b : list N) : StronglySorted N.lt (a ++ b) -> StronglySorted N.lt a.
Proof.
  induction a as [|x a IH]; [constructor|]. cbn. inversion 1; subst. constructor; auto. apply Forall_app in H3. tauto.
Qed.
Lemma sorted_snoc (a : list N) x : StronglySorted N.lt a -> Forall (fun i => i < x) a -> StronglySorted N.lt (a ++ [x]).
Proof.
  induction a as [|y a IH]; intros S F; cbn; [repeat constructor|]. inversion S; inversion F; subst. constructor; [auto|].
  apply Forall_app. split; [assumption|]. constructor; [assumption|constructor].
Qed.

(** The session is gone: keep what was written. *)
Lemma sinv_winv L cid x : sinv L cid x -> winv L cid.
Proof.
  intros [(is & S1 & S2 & S3 & S4) B C D E F G H]. split.
  - apply Forall2_app_inv_r in S4. destruct S4 as (i1 & i2 & F1 & F2 & ->). exists i1. split; [now apply sorted_app_l in S1|]. split; [|exact F1].
    apply Forall_forall. intros i Hi. apply S3, in_or_app. auto.
  - destruct (sn_pending x); cbn [opt] in B; [|now rewrite app_nil_r in B].
    rewrite app_length, map_app in B. cbn [length] in B. rewrite Nat.add_1_r, seqs_S in B. now apply app_inj_tail in B.
Qed.

Lemma took_pub_app L o : took_pub L -> (forall c i, In (QTook c i) o -> i < blen (published L)) -> took_pub (L ++ o).
Proof.
  intros T H c i Hi. pose proof (published_le L o). apply in_app_or in Hi. destruct Hi as [Hi|Hi]; [specialize (T _ _ Hi); lia|specialize (H _ _ Hi); lia].
Qed.

Section S.
Variable buf : N.
Notation cap := (bcast_cap buf).
Definition skips (L : list qout) : Prop := forall b cid x y a, L = b ++ QSkipped cid x y :: a ->
     x < y /\ y + cap = blen (published b) /\
     (forall i, In (QTook cid i) b -> i < x) /\ (forall i, In (QTook cid i) a -> y <= i).

Lemma skips_app L o : skips L -> (forall c i x y, In (QTook c i) o -> In (QSkipped c x y) L -> y <= i) -> (forall c x y, ~ In (QSkipped c x y) o) -> skips (L ++ o).
Proof using.
  intros K T N b cid x y a E. destruct (split_app_list o _ _ _ _ E) as [(a' & -> & ->)|(b' & a' & -> & -> & ->)].
  - destruct (K b cid x y a' eq_refl) as (H1 & H2 & H3 & H4). split; [exact H1|]. split; [exact H2|]. split; [exact H3|].
    intros i Hi. apply in_app_or in Hi. destruct Hi as [Hi|Hi]; [auto|]. eapply T; [exact Hi|]. apply in_or_app. right. left. reflexivity.
  - exfalso. apply (N cid x y). apply in_or_app. right. left. reflexivity.
Qed.

(** Steps that do not concern the running sessions. *)
Lemma tinv_quiet L s o s' : tinv buf L s -> (forall c, silent c o) -> pb_sess s' = pb_sess s -> pb_hist s' = pb_hist s ++ published o -> tinv buf (L ++ o) s'.
Proof using.
  intros [T1 T2 T3 T4 T5 T6] S Es Eh.
  assert (NT : forall c i, ~ In (QTook c i) o) by (intros c i Hi; apply (S c _ Hi); reflexivity).
  constructor.
  - now rewrite published_app, Eh, T1.
  - apply took_pub_app; auto. intros c i Hi. now apply NT in Hi.
  - intros cid x. rewrite Es. intros G. apply sinv_ext; auto.
  - intros cid. rewrite Es. intros G. apply winv_ext; auto.
  - intros cid. rewrite Es, sub_ended_app, in_app_iff. intros G E. apply silent_app. split; auto.
  - apply skips_app; auto; [intros c i x y Hi; now apply NT in Hi|]. intros c x y Hi. now apply (S c _ Hi).
Qed.

(** A session ends with a quiet log [o]. *)
Lemma tinv_end L s s' o cid x : tinv buf L s -> mget cid (pb_sess s) = Some x -> NoDup (mkeys (pb_sess s)) -> pb_sess s' = mdel cid (pb_sess s) -> pb_hist s' = pb_hist s ->
  published o = [] -> (forall c, c <> cid -> silent c o) -> In cid (sub_ended o) -> took_pub (L ++ o) -> skips (L ++ o) -> winv (L ++ o) cid ->
  tinv buf (L ++ o) s'.
Proof using.
  intros [T1 T2 T3 T4 T5 T6] G Nd Es Eh Po S En TP SK W. constructor; auto.
  - now rewrite published_app, Po, app_nil_r, Eh.
  - intros c y. rewrite Es, mget_del. destruct (eq_dec c cid); [discriminate|]. intros G'. apply sinv_ext; auto.
  - intros c. rewrite Es, mget_del. destruct (eq_dec c cid) as [->|Ne]; [intros _; exact W|]. intros G'. apply winv_ext; auto.
  - intros c. rewrite Es, mget_del. rewrite sub_ended_app, in_app_iff. destruct (eq_dec c cid) as [->|Ne]; [tauto|]. intros G' E'. apply silent_app. split; auto.
Qed.

Lemma tinv_step L s s' o cid x x' : tinv buf L s -> mget cid (pb_sess s) = Some x -> pb_sess s' = mset cid x' (pb_sess s) -> pb_hist s' = pb_hist s ->
  published o = [] -> (forall c, c <> cid -> silent c o) -> took_pub (L ++ o) -> skips (L ++ o) -> sinv (L ++ o) cid x' ->
  tinv buf (L ++ o) s'.
Proof using.
  intros [T1 T2 T3 T4 T5 T6] G Es Eh Po S TP SK W. constructor; auto.
  - now rewrite published_app, Po, app_nil_r, Eh.
  - intros c y. rewrite Es, mget_set. destruct (eq_dec c cid) as [->|Ne]; [intros [= <-]; exact W|]. intros G'. apply sinv_ext; auto.
  - intros c. rewrite Es, mget_set. destruct (eq_dec c cid) as [->|Ne]; [discriminate|]. intros G'. apply winv_ext; auto.
  - intros c. rewrite Es, mget_set. rewrite sub_ended_app, in_app_iff. destruct (eq_dec c cid) as [->|Ne]; [discriminate|]. intros G' E'. apply silent_app. split; auto.
Qed.

Lemma silent_one c cid x : (forall c', sess_ev c' x -> c' = cid) -> c <> cid -> silent c [x].
Proof using. intros H Ne y [<-|[]] Hs. apply Ne. auto. Qed.

Lemma message_hist L s i : tinv buf L s -> nth_error (pb_hist s) i = message L (N.of_nat i).
Proof using. intros T. unfold message. now rewrite Nat2N.id, (ti_hist _ _ _ T). Qed.

Lemma into_wire_carries now q p m : pub_into_wire now q (pm_topic p) (pm_body p) = Some m -> carries p m /\ ps_seq m = q.
Proof using.
  unfold pub_into_wire, ps_new. destruct (_ <? _); [|discriminate]. intros [= <-]. split; [|reflexivity]. repeat split.
Qed.

Lemma sstep_tinv L s s' cid x o d x' : tinv buf L s -> mget cid (pb_sess s) = Some x -> sstep buf cid (pb_hist s) x o d x' ->
  pb_sess s' = mset cid x' (pb_sess s) -> pb_hist s' = pb_hist s -> tinv buf (L ++ o) s'.
Proof using.
  intros T G St Es Eh. pose proof (ti_sess _ _ _ T _ _ G) as I. pose proof (ti_took _ _ _ T) as TP. pose proof (ti_skips _ _ _ T) as SK.
  pose proof (ti_hist _ _ _ T) as TH.
  destruct St as [fl|m fl P|p now m fl P Lt Le Nt C W|p fl P Lt Le Nt C|fl P Lt|m fl P E].
  - rewrite app_nil_r. assert (Q : tinv buf (L ++ []) s').
    { eapply tinv_step; eauto; try easy; rewrite ?app_nil_r; auto. destruct I; constructor; auto. }
    now rewrite app_nil_r in Q.
  - apply (tinv_step L s s' _ cid x _ T G Es Eh); [reflexivity|intros c; apply silent_one; cbn; auto| | |].
    + apply took_pub_app; auto. intros c i [H|[]]; discriminate.
    + apply skips_app; auto; [intros c i u v [H|[]]; discriminate|intros c u v [H|[]]; discriminate].
    + destruct I as [(is & S1 & S2 & S3 & S4) B Cq D E F Gs H]. rewrite P in *. cbn [opt] in *.
      assert (Q : sent_to cid (L ++ [QHanded cid m true]) = sent_to cid L ++ [m]).
      { rewrite sent_to_app. cbn [sent_to flat_map]. destruct (eq_dec cid cid); [reflexivity|congruence]. }
      constructor; cbn [sn_pos sn_pending sn_filter sn_seq opt]; rewrite ?Q, ?app_nil_r; auto.
      * exists is. split; [exact S1|]. split; [exact S2|]. split.
        -- intros i. rewrite due_app_old; auto. intros c j [H'|[]]; discriminate.
        -- eapply Forall2_imp; [|exact S4]. intros; now apply carry_app.
      * rewrite ops_of_app. cbn. now rewrite app_nil_r.
      * pose proof (published_le L [QHanded cid m true]). lia.
      * intros i Hi. apply in_app_or in Hi. destruct Hi as [Hi|[Hi|[]]]; [auto|discriminate].
      * intros a b Hi. apply in_app_or in Hi. destruct Hi as [Hi|[Hi|[]]]; [eauto|discriminate].
      * intros b a i E' Hb Hp. destruct (split_app_one _ _ _ _ _ E') as [(a' & -> & ->)|(Ex & _)]; [|discriminate].
        destruct (H b a' i eq_refl Hb Hp) as [T'|(u & v & T' & R)]; [left; apply in_or_app; auto|right; exists u, v; split; [apply in_or_app; auto|exact R]].
  - (* take *)
    assert (M : message L (sn_pos x) = Some p) by (unfold message; now rewrite <- TH).
    destruct (into_wire_carries _ _ _ _ W) as [Cr Sq].
    apply (tinv_step L s s' _ cid x _ T G Es Eh); [reflexivity|intros c; apply silent_one; cbn; auto| | |].
    + apply took_pub_app; auto. intros c i [H|[]]. injection H as _ <-. now apply message_lt in M.
    + apply skips_app; auto; [intros c i u v [H|[]]; injection H as <- <-; apply (si_skip _ _ _ I)|intros c u v [H|[]]; discriminate].
    + destruct I as [(is & S1 & S2 & S3 & S4) B Cq D E F Gs H]. rewrite P in *. cbn [opt] in *. rewrite app_nil_r in *.
      assert (Q : sent_to cid (L ++ [QTook cid (sn_pos x)]) = sent_to cid L) by (rewrite sent_to_app; cbn; now rewrite app_nil_r).
      constructor; cbn [sn_pos sn_pending sn_filter sn_seq opt]; rewrite ?Q.
      * exists (is ++ [sn_pos x]). split; [now apply sorted_snoc|]. split.
        { apply Forall_app. split; [eapply Forall_impl; [|exact S2]; cbn; intros; lia|]. constructor; [lia|constructor]. }
        split.
        -- intros i. rewrite (due_app_took cid L _ p) by auto. rewrite S3, in_app_iff. rewrite <- D. cbn [In]. intuition congruence.
        -- apply Forall2_app; [eapply Forall2_imp; [|exact S4]; intros; now apply carry_app|]. constructor; [|constructor].
           exists p. split; [now apply message_app|exact Cr].
      * rewrite map_app, app_length. cbn [map length]. rewrite Nat.add_1_r, seqs_S, B. now rewrite Sq, Cq.
      * unfold wrapping_add32. rewrite Cq, app_length. cbn [length]. rewrite N.add_mod_idemp_l by lia. f_equal. lia.
      * rewrite ops_of_app. cbn. now rewrite app_nil_r.
      * rewrite published_app. cbn. rewrite app_nil_r. apply message_lt in M. lia.
      * intros i Hi. apply in_app_or in Hi. destruct Hi as [Hi|[Hi|[]]]; [apply F in Hi; lia|]. injection Hi as <-. lia.
      * intros a b Hi. apply in_app_or in Hi. destruct Hi as [Hi|[Hi|[]]]; [apply Gs in Hi; lia|discriminate].
      * intros b a i E' Hb Hp. destruct (split_app_one _ _ _ _ _ E') as [(a' & -> & ->)|(Ex & _)]; [|discriminate].
        destruct (N.eq_dec i (sn_pos x)) as [->|Ne]; [left; apply in_or_app; right; now left|].
        destruct (H b a' i eq_refl Hb ltac:(lia)) as [T'|(u & v & T' & R)]; [left; apply in_or_app; auto|right; exists u, v; split; [apply in_or_app; auto|exact R]].
  - (* pass *)
    assert (M : message L (sn_pos x) = Some p) by (unfold message; now rewrite <- TH).
    apply (tinv_step L s s' _ cid x _ T G Es Eh); [reflexivity|intros c; apply silent_one; cbn; auto| | |].
    + apply took_pub_app; auto. intros c i [H|[]]. injection H as _ <-. now apply message_lt in M.
    + apply skips_app; auto; [intros c i u v [H|[]]; injection H as <- <-; apply (si_skip _ _ _ I)|intros c u v [H|[]]; discriminate].
    + destruct I as [(is & S1 & S2 & S3 & S4) B Cq D E F Gs H]. rewrite P in *. cbn [opt] in *. rewrite app_nil_r in *.
      assert (Q : sent_to cid (L ++ [QTook cid (sn_pos x)]) = sent_to cid L) by (rewrite sent_to_app; cbn; now rewrite app_nil_r).
      constructor; cbn [sn_pos sn_pending sn_filter sn_seq opt]; rewrite ?Q, ?app_nil_r; auto.
      * exists is. split; [exact S1|]. split; [eapply Forall_impl; [|exact S2]; cbn; intros; lia|]. split.
        -- intros i. rewrite (due_app_took cid L _ p) by auto. rewrite S3, <- D. intuition congruence.
        -- eapply Forall2_imp; [|exact S4]; intros; now apply carry_app.
      * rewrite ops_of_app. cbn. now rewrite app_nil_r.
      * rewrite published_app. cbn. rewrite app_nil_r. apply message_lt in M. lia.
      * intros i Hi. apply in_app_or in Hi. destruct Hi as [Hi|[Hi|[]]]; [apply F in Hi; lia|]. injection Hi as <-. lia.
      * intros a b Hi. apply in_app_or in Hi. destruct Hi as [Hi|[Hi|[]]]; [apply Gs in Hi; lia|discriminate].
      * intros b a i E' Hb Hp. destruct (split_app_one _ _ _ _ _ E') as [(a' & -> & ->)|(Ex & _)]; [|discriminate].
        destruct (N.eq_dec i (sn_pos x)) as [->|Ne]; [left; apply in_or_app; right; now left|].
        destruct (H b a' i eq_refl Hb ltac:(lia)) as [T'|(u & v & T' & R)]; [left; apply in_or_app; auto|right; exists u, v; split; [apply in_or_app; auto|exact R]].
  - (* lag *)
    rewrite TH in Lt, Es |- *.
    apply (tinv_step L s s' _ cid x _ T G Es Eh); [reflexivity|intros c; apply silent_one; cbn; auto| | |].
    + apply took_pub_app; auto. intros c i [H|[]]; discriminate.
    + intros b c u v a E. destruct (split_app_one _ _ _ _ _ E) as [(a' & -> & ->)|(Ex & -> & ->)].
      * destruct (SK b c u v a' eq_refl) as (H1 & H2 & H3 & H4). split; [exact H1|]. split; [exact H2|]. split; [exact H3|].
        intros i Hi. apply in_app_or in Hi. destruct Hi as [Hi|[Hi|[]]]; [auto|discriminate].
      * injection Ex as -> -> ->. split; [lia|]. split; [lia|]. split; [apply (si_took _ _ _ I)|easy].
    + destruct I as [(is & S1 & S2 & S3 & S4) B Cq D E F Gs H]. rewrite P in *. cbn [opt] in *. rewrite app_nil_r in *.
      set (o := QSkipped cid (sn_pos x) (blen (published L) - cap)).
      assert (Q : sent_to cid (L ++ [o]) = sent_to cid L) by (rewrite sent_to_app; cbn; now rewrite app_nil_r).
      constructor; cbn [sn_pos sn_pending sn_filter sn_seq opt]; rewrite ?Q, ?app_nil_r; auto.
      * exists is. split; [exact S1|]. split; [eapply Forall_impl; [|exact S2]; cbn; intros; lia|]. split.
        -- intros i. rewrite due_app_old; auto. intros c j [H'|[]]; discriminate.
        -- eapply Forall2_imp; [|exact S4]; intros; now apply carry_app.
      * rewrite ops_of_app. cbn. now rewrite app_nil_r.
      * pose proof (published_le L [o]). lia.
      * intros i Hi. apply in_app_or in Hi. destruct Hi as [Hi|[Hi|[]]]; [apply F in Hi; lia|discriminate].
      * intros a b Hi. apply in_app_or in Hi. destruct Hi as [Hi|[Hi|[]]]; [apply Gs in Hi; lia|]. unfold o in Hi. injection Hi as <- <-. lia.
      * intros b a i E' Hb Hp. destruct (split_app_one _ _ _ _ _ E') as [(a' & -> & ->)|(Ex & _)]; [|discriminate].
        destruct (N.lt_ge_cases i (sn_pos x)) as [Hl|Hl].
        -- destruct (H b a' i eq_refl Hb Hl) as [T'|(u & v & T' & R)]; [left; apply in_or_app; auto|right; exists u, v; split; [apply in_or_app; auto|exact R]].
        -- right. exists (sn_pos x), (blen (published (b ++ QOpen cid :: a')) - cap). split; [apply in_or_app; right; now left|]. lia.
  - (* control *)
    apply (tinv_step L s s' _ cid x _ T G Es Eh); [reflexivity|intros c; apply silent_one; cbn; auto| | |].
    + apply took_pub_app; auto. intros c i [H|[]]; discriminate.
    + apply skips_app; auto; [intros c i u v [H|[]]; discriminate|intros c u v [H|[]]; discriminate].
    + destruct I as [(is & S1 & S2 & S3 & S4) B Cq D Ep F Gs H]. rewrite P in *. cbn [opt] in *. rewrite app_nil_r in *.
      set (o := QControl cid m (msg_to_control m)).
      assert (Q : sent_to cid (L ++ [o]) = sent_to cid L) by (rewrite sent_to_app; cbn; now rewrite app_nil_r).
      constructor; cbn [sn_pos sn_pending sn_filter sn_seq opt]; rewrite ?Q, ?app_nil_r; auto.
      * exists is. split; [exact S1|]. split; [exact S2|]. split.
        -- intros i. rewrite due_app_old; auto. intros c j [H'|[]]; discriminate.
        -- eapply Forall2_imp; [|exact S4]; intros; now apply carry_app.
      * rewrite ops_of_app. unfold o. cbn [ops_of flat_map]. destruct (msg_to_control m) as [op|]; [|now rewrite !app_nil_r].
        destruct (eq_dec cid cid); [|congruence]. cbn [app]. unfold trie_run. rewrite fold_left_app. cbn [fold_left]. now rewrite D.
      * pose proof (published_le L [o]). lia.
      * intros i Hi. apply in_app_or in Hi. destruct Hi as [Hi|[Hi|[]]]; [apply F in Hi; lia|discriminate].
      * intros a b Hi. apply in_app_or in Hi. destruct Hi as [Hi|[Hi|[]]]; [apply Gs in Hi; lia|discriminate].
      * intros b a i E' Hb Hp. destruct (split_app_one _ _ _ _ _ E') as [(a' & -> & ->)|(Ex & _)]; [|discriminate].
        destruct (H b a' i eq_refl Hb Hp) as [T'|(u & v & T' & R)]; [left; apply in_or_app; auto|right; exists u, v; split; [apply in_or_app; auto|exact R]].
Qed.

(** A new session. *)
Lemma tinv_open L s s0 s' pre cid : tinv buf L s -> mget cid (pb_sess s) = None -> ~ In cid (sub_ended L) -> (forall c, silent c pre) -> published pre = [] ->
  sub_ended pre = [] -> pb_sess s0 = pb_sess s -> pb_hist s0 = pb_hist s -> s' = fst (pb_open cid s0) -> tinv buf (L ++ pre ++ snd (pb_open cid s0)) s'.
Proof using.
  intros T G En Sp Pp Ep Es Eh ->. pose proof (ti_silent _ _ _ T cid G En) as S. destruct T as [T1 T2 T3 T4 T5 T6].
  unfold pb_open. cbn [fst snd]. rewrite app_assoc.
  assert (S' : silent cid (L ++ pre)) by (apply silent_app; auto).
  assert (TPp : took_pub (L ++ pre)) by (apply took_pub_app; auto; intros c i Hi; exfalso; now apply (Sp c _ Hi)).
  assert (So : forall c, c <> cid -> silent c [QOpen cid]) by (intros c; apply silent_one; cbn; auto).
  assert (Pn : published (L ++ pre) = published L) by (rewrite published_app, Pp; apply app_nil_r).
  assert (Sl : forall c, c <> cid -> silent c (pre ++ [QOpen cid])) by (intros c Ne; apply silent_app; auto).
  constructor; cbn [pb_hist pb_sess].
  - rewrite published_app, Pn. cbn. now rewrite app_nil_r, Eh.
  - apply took_pub_app; auto. intros c i [H|[]]; discriminate.
  - intros c y. rewrite Es, mget_set. destruct (eq_dec c cid) as [->|Ne]; [|intros Gc; rewrite <- app_assoc; apply sinv_ext; auto].
    intros [= <-]. unfold sess_new. set (L' := (L ++ pre) ++ [QOpen cid]).
    assert (Qs : sent_to cid L' = []) by (unfold L'; rewrite sent_to_app, (silent_sent _ _ S'); reflexivity).
    assert (NoTook : forall i, ~ In (QTook cid i) L').
    { intros i Hi. unfold L' in Hi. apply in_app_or in Hi. destruct Hi as [Hi|[Hi|[]]]; [now apply (S' _ Hi)|discriminate]. }
    constructor; cbn [sn_pos sn_pending sn_filter sn_seq opt]; rewrite ?Qs; auto.
    + exists []. split; [constructor|]. split; [constructor|]. split; [|constructor]. intros i. split; [|easy].
      intros (b & a & p & E & _). exfalso. apply (NoTook i). rewrite E. apply in_or_app. right. now left.
    + unfold L'. rewrite ops_of_app, (silent_ops _ _ S'). reflexivity.
    + unfold L'. rewrite published_app, Pn, Eh, T1. cbn. rewrite app_nil_r. lia.
    + intros i Hi. now apply NoTook in Hi.
    + intros a b Hi. unfold L' in Hi. apply in_app_or in Hi. destruct Hi as [Hi|[Hi|[]]]; [|discriminate]. exfalso. now apply (S' _ Hi).
    + intros b a i E Hb Hi. unfold L' in E. destruct (split_app_one _ _ _ _ _ E) as [(a' & _ & E2)|(_ & Eb & _)].
      * exfalso. apply (S' (QOpen cid)); [rewrite E2; apply in_or_app; right; now left|reflexivity].
      * subst b. rewrite Pn, <- T1, <- Eh in Hb. lia.
  - intros c. rewrite Es, mget_set. destruct (eq_dec c cid); [discriminate|]. intros Gc. rewrite <- app_assoc. apply winv_ext; auto.
  - intros c. rewrite Es, mget_set. destruct (eq_dec c cid); [discriminate|]. rewrite !sub_ended_app, !in_app_iff. intros Gc Ec.
    rewrite <- app_assoc. apply silent_app. split; [apply T5; tauto|auto].
  - rewrite <- app_assoc. apply skips_app; auto.
    + intros c i x y Hi. apply in_app_or in Hi. destruct Hi as [Hi|[Hi|[]]]; [exfalso; now apply (Sp c _ Hi)|discriminate].
    + intros c x y Hi. apply in_app_or in Hi. destruct Hi as [Hi|[Hi|[]]]; [exfalso; now apply (Sp c _ Hi)|discriminate].
Qed.

Lemma tinv_prim max auth L s o s' : inv1 L s -> tinv buf L s -> qprim max buf auth s o s' -> tinv buf (L ++ o) s'.
Proof using.
  intros I T P. pose proof (ti_took _ _ _ T) as TP. pose proof (ti_skips _ _ _ T) as SK. pose proof (ti_hist _ _ _ T) as TH.
  destruct P as [cid x o d x' G St|cid x G|cid x m G Pm|cid x p G Pn Lt Le Nt C Big|k cid au input ok id w rest G A S|k cid au input ok w rest G A S|
    k cid au input ok w rest G A S|k cid G|k cid G A|k cid G A|m M Le|M|m C| |C|].
  - eapply sstep_tinv; eauto.
  - apply (tinv_end L s _ _ cid x T G (inv1_keys _ _ I)); auto.
    + intros c _ y [<-|[]]. easy.
    + now left.
    + apply took_pub_app; auto. intros c i [H|[]]; discriminate.
    + apply skips_app; auto; [intros c i u v [H|[]]; discriminate|intros c u v [H|[]]; discriminate].
    + apply winv_ext; auto; [|intros y [<-|[]]; easy]. eapply sinv_winv, ti_sess; eauto.
  - apply (tinv_end L s _ _ cid x T G (inv1_keys _ _ I)); auto.
    + intros c Ne y [<-|[<-|[]]]; cbn; congruence.
    + now left.
    + apply took_pub_app; auto. intros c i [H|[H|[]]]; discriminate.
    + apply skips_app; auto; [intros c i u v [H|[H|[]]]; discriminate|intros c u v [H|[H|[]]]; discriminate].
    + destruct (ti_sess _ _ _ T _ _ G) as [(is & S1 & S2 & S3 & S4) B Cq D E F Gs H]. rewrite Pm in *. cbn [opt] in *.
      assert (Q : sent_to cid (L ++ [QHanded cid m false; QGone cid]) = sent_to cid L ++ [m]).
      { rewrite sent_to_app. cbn [sent_to flat_map]. destruct (eq_dec cid cid); [reflexivity|congruence]. }
      split; rewrite ?Q; auto. exists is. split; [exact S1|]. split.
      * apply Forall_forall. intros i Hi. apply due_app_old; auto; [intros c j [H'|[H'|[]]]; discriminate|now apply S3].
      * eapply Forall2_imp; [|exact S4]. intros; now apply carry_app.
  - assert (Mp : message L (sn_pos x) = Some p) by (unfold message; now rewrite <- TH).
    apply (tinv_end L s _ _ cid x T G (inv1_keys _ _ I)); auto.
    + intros c Ne y [<-|[<-|[]]]; cbn; congruence.
    + now left.
    + apply took_pub_app; auto. intros c i [H|[H|[]]]; [|discriminate]. injection H as _ <-. now apply message_lt in Mp.
    + apply skips_app; auto; [intros c i u v [H|[H|[]]]; [|discriminate]; injection H as <- <-; apply (si_skip _ _ _ (ti_sess _ _ _ T _ _ G))|intros c u v [H|[H|[]]]; discriminate].
    + pose proof (sinv_winv _ _ _ (ti_sess _ _ _ T _ _ G)) as [(is & S1 & S2 & S3) B].
      assert (Q : sent_to cid (L ++ [QTook cid (sn_pos x); QCrashed cid]) = sent_to cid L) by (rewrite sent_to_app; cbn; now rewrite app_nil_r).
      split; rewrite ?Q; auto. exists is. split; [exact S1|]. split.
      * eapply Forall_impl; [|exact S2]. intros i (b & a & q & -> & Mq & Cq).
        exists b, (a ++ [QTook cid (sn_pos x); QCrashed cid]), q. split; [now rewrite <- app_assoc, app_comm_cons|]. split; [now apply message_app|exact Cq].
      * eapply Forall2_imp; [|exact S3]. intros; now apply carry_app.
  - destruct (inv1_auth_new L s k cid I G) as [G' E'].
    apply (tinv_open L s (qdrop_auth s k)); auto. intros c y [<-|[<-|[]]]; easy.
  - apply (tinv_quiet L s); auto; [|now cbn; rewrite app_nil_r]. intros c y [<-|[<-|[]]]; easy.
  - apply (tinv_quiet L s); auto; [|now cbn; rewrite app_nil_r]. intros c y [<-|[]]; easy.
  - apply (tinv_quiet L s); auto; [|now cbn; rewrite app_nil_r]. intros c y [<-|[]]; easy.
  - apply (tinv_quiet L s); auto; [|now cbn; rewrite app_nil_r]. intros c y [].
  - destruct (inv1_conn_new L s k cid I G) as [G' E'].
    apply (tinv_open L s (qdrop_conn s k) _ [] cid); auto. intros c y [].
  - apply (tinv_quiet L s); auto; [|now cbn; rewrite app_nil_r]. intros c y [<-|[]]; easy.
  - apply (tinv_quiet L s); auto; [|now cbn; rewrite app_nil_r]. intros c y [<-|[]]; easy.
  - apply (tinv_quiet L s); auto. intros c y [<-|[]]; easy.
  - apply (tinv_quiet L s); auto; [|now cbn; rewrite app_nil_r]. intros c y [<-|[]]; easy.
  - apply (tinv_quiet L s); auto; [|now cbn; rewrite app_nil_r]. intros c y [<-|[]]; easy.
  - apply (tinv_quiet L s); auto; [|now cbn; rewrite app_nil_r]. intros c y [].
Qed.

Lemma tinv_init : tinv buf [] pb_init.
Proof using.
  constructor; try easy.
  - intros cid _. split; [|reflexivity]. exists []. repeat constructor.
  - intros b cid x y a E. destruct b; discriminate.
Qed.
Lemma run_tinv max min auth co evs s L : pb_run max buf min auth co pb_init evs = (s, L) -> inv1 L s /\ tinv buf L s.
Proof using.
  apply (run_inv max buf min auth co (fun L s => inv1 L s /\ tinv buf L s)); [split; [apply inv1_init|apply tinv_init]|].
  intros L' s1 o s2 [I T] P. split; [eapply inv1_prim; eauto|eapply tinv_prim; eauto].
Qed.
End S.
