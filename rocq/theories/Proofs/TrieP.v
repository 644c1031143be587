(** The trie refines a set of token paths. *)
From Verif Require Import Model.Base Model.Map Model.Trie Spec.Topics Proofs.MapP.

(** Node reached by a path. *)
Fixpoint node_at (n : node) (p : list bytes) : option node :=
  match p with
  | [] => Some n
  | t :: p' => match mget t (n_children n) with Some c => node_at c p' | None => None end
  end.

Definition ends (n : node) (p : list bytes) : Prop := exists m, node_at n p = Some m /\ n_end m = true.

Lemma ends_nil n : ends n [] <-> n_end n = true.
Proof. unfold ends; cbn. split; [intros (m & E & H); congruence|intros H; eauto]. Qed.
Lemma ends_cons n t p : ends n (t :: p) <-> exists c, mget t (n_children n) = Some c /\ ends c p.
Proof. unfold ends; cbn. destruct (mget t (n_children n)) as [c|]; split.
  - intros H. eauto. - intros (c' & E & H). inversion E; subst; assumption.
  - intros (m & E & _). discriminate. - intros (c & E & _). discriminate. Qed.

(** No dead nodes. *)
Definition live (n : node) : Prop := forall p m, p <> [] -> node_at n p = Some m -> exists q, ends m q.

Lemma live_new : live node_new.
Proof. intros [|t p] m H; [congruence|]. cbn. discriminate. Qed.

Lemma live_child n t c : live n -> mget t (n_children n) = Some c -> live c /\ exists q, ends c q.
Proof.
  intros L G. split.
  - intros p m Hp E. apply (L (t :: p) m); [discriminate|]. cbn. rewrite G. exact E.
  - apply (L [t] c); [discriminate|]. cbn. rewrite G. reflexivity.
Qed.

Lemma live_build ch ca e : (forall t c, mget t ch = Some c -> live c /\ exists q, ends c q) -> live (Node ch ca e).
Proof.
  intros H [|t p] m Hp E; [congruence|]. cbn in E. destruct (mget t ch) as [c|] eqn:G; [|discriminate].
  destruct (H t c G) as [L X]. destruct p as [|t' p]; [cbn in E; inversion E; subst; exact X|].
  apply (L (t' :: p)); [discriminate|exact E].
Qed.

(** catch_all is set exactly at paths whose last token is ">" ([d]: this very node), and such nodes are leaves. *)
Definition gt_last (d : bool) (p : list bytes) : bool :=
  match p with [] => d | _ => if eq_dec (last p []) GT then true else false end.
Definition catch_ok (d : bool) (n : node) : Prop :=
  forall p m, node_at n p = Some m -> n_catch m = gt_last d p /\ (gt_last d p = true -> n_children m = []).

Definition is_gt (t : bytes) : bool := if eq_dec t GT then true else false.
Lemma gt_last_cons d t p : gt_last d (t :: p) = gt_last (is_gt t) p.
Proof. destruct p; reflexivity. Qed.

Lemma catch_child d n t c : catch_ok d n -> mget t (n_children n) = Some c -> catch_ok (is_gt t) c.
Proof. intros H G p m E. specialize (H (t :: p) m). cbn [node_at] in H. rewrite G in H. specialize (H E).
  rewrite gt_last_cons in H. exact H. Qed.

Lemma catch_build d ch e : (forall t c, mget t ch = Some c -> catch_ok (is_gt t) c) -> (d = true -> ch = []) ->
  catch_ok d (Node ch d e).
Proof. intros H Hd [|t p] m E.
  - cbn in E. inversion E; subst. cbn. auto.
  - cbn in E. destruct (mget t ch) as [c|] eqn:G; [|discriminate]. rewrite gt_last_cons. eapply H; eauto. Qed.

Lemma catch_new : catch_ok false node_new.
Proof. apply catch_build; [intros t c; cbn; discriminate|discriminate]. Qed.

Lemma catch_root d n : catch_ok d n -> n_catch n = d /\ (d = true -> n_children n = []).
Proof. intros H. apply (H [] n). reflexivity. Qed.

(** The part of a subscription that the filter looks at. *)
Fixpoint trunc (ts : list bytes) : list bytes :=
  match ts with [] => [] | t :: ts' => if eq_dec t GT then [t] else t :: trunc ts' end.

(** Insert. *)
Lemma insert_ends ts : forall n p, ends (insert_tokens n ts) p <-> ends n p \/ p = trunc ts.
Proof.
  induction ts as [|t ts IH]; intros n p; cbn [insert_tokens trunc].
  - destruct p as [|u p].
    + rewrite !ends_nil. cbn. split; [auto|reflexivity].
    + rewrite !ends_cons. cbn. split; [auto|]. intros [H|H]; [exact H|discriminate].
  - destruct p as [|u p].
    + rewrite !ends_nil. cbn. split; [auto|]. intros [H|H]; [exact H|]. destruct (eq_dec t GT); discriminate.
    + rewrite !ends_cons. cbn [n_children]. rewrite mget_set.
      destruct (eq_dec u t) as [->|Ne].
      * set (c := child_or_new n t).
        assert (Hc : (exists c', mget t (n_children n) = Some c' /\ ends c' p) <-> ends c p).
        { unfold c, child_or_new. destruct (mget t (n_children n)) as [c0|].
          - split; [intros (? & E & H); inversion E; subst; auto|eauto].
          - split; [intros (? & E & _); discriminate|].
            destruct p; [rewrite ends_nil; cbn; discriminate|rewrite ends_cons; cbn; intros (? & E & _); discriminate]. }
        rewrite Hc. destruct (eq_dec t GT) as [e|e].
        -- split.
           ++ intros (c' & E & H). inversion E; subst c'. destruct p as [|v p]; [right; reflexivity|].
              left. rewrite ends_cons in H |- *. exact H.
           ++ intros [H|H]; eexists; (split; [reflexivity|]).
              ** destruct p as [|v p]; [rewrite ends_nil; reflexivity|]. rewrite ends_cons in H |- *. exact H.
              ** inversion H; subst. rewrite ends_nil. reflexivity.
        -- split.
           ++ intros (c' & E & H). inversion E; subst c'. apply IH in H. destruct H as [H|H]; [auto|]. right. congruence.
           ++ intros H. eexists; split; [reflexivity|]. apply IH. destruct H as [H|H]; [auto|]. right. inversion H; reflexivity.
      * split; [intros H; left; exact H|]. intros [H|H]; [exact H|].
        destruct (eq_dec t GT); inversion H; congruence.
Qed.

Lemma insert_live ts : forall n, live n -> live (insert_tokens n ts).
Proof.
  induction ts as [|t ts IH]; intros n L; cbn [insert_tokens].
  - apply live_build. intros u c G. exact (live_child _ _ _ L G).
  - assert (Lc : live (child_or_new n t)).
    { unfold child_or_new. destruct (mget t (n_children n)) eqn:G; [|apply live_new]. exact (proj1 (live_child _ _ _ L G)). }
    apply live_build. intros u c G. rewrite mget_set in G. destruct (eq_dec u t) as [->|Ne].
    + inversion G; subst c. destruct (eq_dec t GT).
      * split; [|exists []; apply ends_nil; reflexivity]. apply live_build. intros v c' G'. exact (live_child _ _ _ Lc G').
      * split; [apply IH, Lc|]. exists (trunc ts). apply insert_ends. right; reflexivity.
    + exact (live_child _ _ _ L G).
Qed.

Lemma insert_catch ts : forall n d, catch_ok d n -> (d = true -> ts = []) -> catch_ok d (insert_tokens n ts).
Proof.
  induction ts as [|t ts IH]; intros n d C Hd; cbn [insert_tokens].
  - destruct (catch_root _ _ C) as [-> X]. apply catch_build; [|exact X]. intros u c G. eapply catch_child; eauto.
  - destruct (catch_root _ _ C) as [-> X].
    assert (Cc : mget t (n_children n) = None \/ catch_ok (is_gt t) (child_or_new n t)).
    { unfold child_or_new. destruct (mget t (n_children n)) eqn:G; [right|left; reflexivity]. eapply catch_child; eauto. }
    apply catch_build; [|intros e; specialize (Hd e); discriminate].
    intros u c G. rewrite mget_set in G. destruct (eq_dec u t) as [->|Ne].
    + inversion G; subst c. unfold is_gt in *. destruct (eq_dec t GT).
      * assert (n_children (child_or_new n t) = []) as ->.
        { unfold child_or_new in *. destruct (mget t (n_children n)) eqn:G'; [|reflexivity].
          destruct Cc as [Cc|Cc]; [discriminate|]. apply catch_root in Cc. tauto. }
        apply catch_build; [intros ? ?; cbn; discriminate|reflexivity].
      * apply IH; [|discriminate]. unfold child_or_new in *. destruct (mget t (n_children n)); [|apply catch_new].
        destruct Cc as [Cc|Cc]; [discriminate|exact Cc].
    + eapply catch_child; eauto.
Qed.

(** Remove. *)
Lemma remove_spec ts : forall n, live n ->
  let r := remove_tokens n ts in
  live (fst r) /\ (forall p, ends (fst r) p <-> ends n p /\ p <> ts) /\
  (snd r = true -> n_children (fst r) = [] /\ n_end (fst r) = false) /\
  (snd r = false -> (exists p, ends n p) -> exists p, ends (fst r) p).
Proof.
  induction ts as [|t ts IH]; intros n L; cbn [remove_tokens].
  - destruct (n_end n) eqn:En; cbn [fst snd].
    + split; [apply live_build; intros u c G; exact (live_child _ _ _ L G)|]. split.
      { intros [|u p]; [rewrite !ends_nil|rewrite !ends_cons]; cbn.
        - split; [discriminate|intros []; congruence].
        - split; [intros H; split; [exact H|discriminate]|tauto]. }
      destruct (n_children n) as [|[u c] ch] eqn:Ch; cbn.
      { split; [auto|discriminate]. }
      split; [discriminate|]. intros _ _.
      destruct (live_child n u c L) as (_ & q & Hq).
      { rewrite Ch. cbn. destruct (eq_dec u u); congruence. }
      exists (u :: q). rewrite ends_cons. cbn. destruct (eq_dec u u); [eauto|congruence].
    + split; [exact L|]. split.
      { intros p. split; [intros H; split; [exact H|]|tauto]. intros ->. rewrite ends_nil in H. congruence. }
      split; [discriminate|auto].
  - destruct (mget t (n_children n)) as [c|] eqn:G; cbn [fst snd].
    2:{ split; [exact L|]. split; [|split; [discriminate|auto]].
        intros p. split; [intros H; split; [exact H|]|tauto]. intros ->. rewrite ends_cons in H.
        destruct H as (c & E & _). congruence. }
    destruct (live_child n t c L G) as [Lc Xc]. specialize (IH c Lc). cbv zeta in IH.
    destruct (remove_tokens c ts) as [c' b]. cbn [fst snd] in IH. destruct IH as (L' & E' & T' & F').
    destruct b; cbn [fst snd].
    + destruct (T' eq_refl) as [Hch Hen].
      assert (Hnone : forall p, ends c p -> p = ts).
      { intros p Hp. destruct (list_eq_dec (list_eq_dec Byte.byte_eq_dec) p ts) as [|Ne]; [assumption|].
        exfalso. assert (X : ends c' p) by (apply E'; auto). destruct p as [|u p].
        - rewrite ends_nil in X. congruence.
        - rewrite ends_cons, Hch in X. destruct X as (? & ? & _). discriminate. }
      assert (Hends : forall p, ends (Node (mdel t (n_children n)) (n_catch n) (n_end n)) p <-> ends n p /\ p <> t :: ts).
      { intros [|u p].
        - rewrite !ends_nil. cbn. split; [intros H; split; [exact H|discriminate]|tauto].
        - rewrite !ends_cons. cbn [n_children]. rewrite mget_del. destruct (eq_dec u t) as [->|Ne].
          + split; [intros (? & ? & _); discriminate|]. intros [(x & Gx & Hx) Hne]. rewrite G in Gx.
            inversion Gx; subst x. exfalso. apply Hne. f_equal. auto.
          + split; [intros H; split; [exact H|congruence]|tauto]. }
      split; [apply live_build; intros u x Gx; rewrite mget_del in Gx; destruct (eq_dec u t); [discriminate|];
              exact (live_child _ _ _ L Gx)|].
      split; [exact Hends|]. split.
      * intros B. apply andb_true_iff in B. destruct B as [B1 B2]. cbn.
        destruct (mdel t (n_children n)); [|discriminate]. split; [reflexivity|]. apply negb_true_iff; exact B2.
      * intros B _. apply andb_false_iff in B. destruct B as [B|B].
        -- cbn [n_children]. destruct (mdel t (n_children n)) as [|[u x] ch] eqn:D; [discriminate|].
           assert (Gu : mget u (mdel t (n_children n)) = Some x).
           { rewrite D. cbn. destruct (eq_dec u u); congruence. }
           rewrite mget_del in Gu. destruct (eq_dec u t); [discriminate|].
           destruct (live_child n u x L Gu) as (_ & q & Hq).
           exists (u :: q). apply ends_cons. cbn. destruct (eq_dec u u); [eauto|congruence].
        -- exists []. apply ends_nil. cbn. destruct (n_end n); [reflexivity|discriminate].
    + assert (X' : exists p, ends c' p) by auto.
      split.
      { apply live_build. intros u x Gx. rewrite mget_set in Gx. destruct (eq_dec u t).
        - inversion Gx; subst x. auto. - exact (live_child _ _ _ L Gx). }
      split; [|split; [discriminate|]].
      * intros [|u p].
        -- rewrite !ends_nil. cbn. split; [intros H; split; [exact H|discriminate]|tauto].
        -- rewrite !ends_cons. cbn [n_children]. rewrite mget_set. destruct (eq_dec u t) as [->|Ne].
           ++ split.
              ** intros (x & Gx & Hx). inversion Gx; subst x. apply E' in Hx. destruct Hx as [Hx Hne].
                 split; [eauto|congruence].
              ** intros [(x & Gx & Hx) Hne]. rewrite G in Gx. inversion Gx; subst x. eexists; split; [reflexivity|].
                 apply E'. split; [assumption|congruence].
           ++ split; [intros H; split; [exact H|congruence]|tauto].
      * intros _ _. destruct X' as [q Hq]. exists (t :: q). apply ends_cons. cbn. rewrite mget_set.
        destruct (eq_dec t t); [eauto|congruence].
Qed.

Lemma remove_catch ts : forall n d, catch_ok d n -> catch_ok d (fst (remove_tokens n ts)).
Proof.
  induction ts as [|t ts IH]; intros n d C; cbn [remove_tokens]; destruct (catch_root _ _ C) as [Hd X].
  - destruct (n_end n); cbn [fst]; [|exact C]. rewrite Hd. apply catch_build; [|exact X].
    intros u c G. eapply catch_child; eauto.
  - destruct (mget t (n_children n)) as [c|] eqn:G; [|exact C].
    specialize (IH c (is_gt t) (catch_child _ _ _ _ C G)). destruct (remove_tokens c ts) as [c' b]. cbn [fst] in *.
    destruct b; cbn [fst]; rewrite Hd; apply catch_build.
    + intros u x Gx. rewrite mget_del in Gx. destruct (eq_dec u t); [discriminate|]. eapply catch_child; eauto.
    + intros e. rewrite (X e). reflexivity.
    + intros u x Gx. rewrite mget_set in Gx. destruct (eq_dec u t); [inversion Gx; subst; assumption|]. eapply catch_child; eauto.
    + intros e. rewrite (X e) in G. discriminate.
Qed.

(** contains, in terms of the set of ends only. *)
Lemma child_iff n t : live n -> (mget t (n_children n) <> None <-> exists q, ends n (t :: q)).
Proof.
  intros L. split.
  - destruct (mget t (n_children n)) as [c|] eqn:G; [|congruence]. intros _.
    destruct (live_child n t c L G) as (_ & q & Hq). exists q. apply ends_cons. eauto.
  - intros (q & H). apply ends_cons in H. destruct H as (c & G & _). congruence.
Qed.

Lemma contains_ext ts : forall d n1 n2, live n1 -> live n2 -> catch_ok d n1 -> catch_ok d n2 ->
  (forall p, ends n1 p <-> ends n2 p) -> contains_tokens n1 ts = contains_tokens n2 ts.
Proof.
  induction ts as [|t ts IH]; intros d n1 n2 L1 L2 C1 C2 H; cbn [contains_tokens];
    destruct (catch_root _ _ C1) as [K1 _], (catch_root _ _ C2) as [K2 _].
  - rewrite K1, K2. pose proof (H []) as H0. rewrite !ends_nil in H0.
    destruct (n_end n1), (n_end n2); intuition congruence.
  - assert (Hc : forall u, (exists c1 c2, mget u (n_children n1) = Some c1 /\ mget u (n_children n2) = Some c2 /\
                            contains_tokens c1 ts = contains_tokens c2 ts) \/
                           (mget u (n_children n1) = None /\ mget u (n_children n2) = None)).
    { intros u. pose proof (child_iff n1 u L1) as I1. pose proof (child_iff n2 u L2) as I2.
      destruct (mget u (n_children n1)) as [c1|] eqn:G1, (mget u (n_children n2)) as [c2|] eqn:G2.
      - left. exists c1, c2. split; [reflexivity|split; [reflexivity|]].
        apply (IH (is_gt u)); [exact (proj1 (live_child _ _ _ L1 G1))|exact (proj1 (live_child _ _ _ L2 G2))|exact (catch_child _ _ _ _ C1 G1)|exact (catch_child _ _ _ _ C2 G2)|].
        intros p. specialize (H (u :: p)). rewrite !ends_cons, G1, G2 in H.
        split; intros E; [destruct (proj1 H) as (x & Ex & Hx)|destruct (proj2 H) as (x & Ex & Hx)]; eauto; congruence.
      - exfalso. destruct (proj1 I1) as [q Hq]; [discriminate|]. apply H in Hq. apply (proj2 I2); eauto.
      - exfalso. destruct (proj1 I2) as [q Hq]; [discriminate|]. apply H in Hq. apply (proj2 I1); eauto.
      - right; auto. }
    destruct (Hc t) as [(c1 & c2 & -> & -> & E)|[-> ->]]; [exact E|].
    destruct (Hc STAR) as [(c1 & c2 & -> & -> & E)|[-> ->]]; [exact E|]. congruence.
Qed.

(** contains is sound for the documented wildcards. *)
Lemma contains_sound ts : forall d n, catch_ok d n -> contains_tokens n ts = true ->
  (d = true /\ n_children n = []) \/
  exists p, matches p ts /\ ends n p \/ (exists m, node_at n p = Some m /\ n_catch m = true /\ p <> [] /\ matches p ts).
Proof.
  induction ts as [|t ts IH]; intros d n C H; cbn [contains_tokens] in H; destruct (catch_root _ _ C) as [K X].
  - apply orb_true_iff in H. destruct H as [H|H].
    + right. exists []. left. split; [constructor|apply ends_nil; exact H].
    + left. rewrite K in H. auto.
  - assert (Hch : forall u c, mget u (n_children n) = Some c -> (u = t \/ u = STAR) -> contains_tokens c ts = true ->
      exists p, matches p (t :: ts) /\ ends n p \/ (exists m, node_at n p = Some m /\ n_catch m = true /\ p <> [] /\ matches p (t :: ts))).
    { intros u c G Hu Hc. pose proof (catch_child _ _ _ _ C G) as Cc.
      assert (M : forall p, matches p ts -> matches (u :: p) (t :: ts)).
      { intros p Hp. destruct Hu as [-> | ->]; [apply m_lit|apply m_star]; exact Hp. }
      destruct (IH _ _ Cc Hc) as [[Hg _]|(p & [[Hm He]|(m & Hn & Hca & Hp & Hm)])].
      - unfold is_gt in Hg. destruct (eq_dec u GT) as [->|]; [|discriminate].
        exists [GT]. right. exists c. cbn. rewrite G. split; [reflexivity|]. split.
        + apply catch_root in Cc. destruct Cc as [-> _]. reflexivity.
        + split; [discriminate|]. apply m_gt.
      - exists (u :: p). left. split; [apply M; exact Hm|]. apply ends_cons. eauto.
      - exists (u :: p). right. exists m. cbn. rewrite G. split; [exact Hn|]. split; [exact Hca|]. split; [discriminate|].
        apply M, Hm. }
    destruct (mget t (n_children n)) as [c|] eqn:G; [right; eapply Hch; eauto|].
    destruct (mget STAR (n_children n)) as [c|] eqn:G2; [right; eapply Hch; eauto|].
    left. rewrite K in H. auto.
Qed.

(** The walk follows [p] if nothing shadows it. *)
Lemma contains_follow p : forall n q, live n -> matches p q -> ends n p -> ~ In GT p ->
  (forall i, nth_error p i = Some STAR -> nth_error q i <> Some STAR ->
     forall t r, nth_error q i = Some t -> ~ ends n (firstn i p ++ t :: r)) ->
  contains_tokens n q = true.
Proof.
  induction p as [|t p IH]; intros n q L M E Hgt Hsh.
  - inversion M; subst. cbn. apply ends_nil in E. rewrite E. reflexivity.
  - apply ends_cons in E. destruct E as (c & G & E).
    assert (Lc : live c) by exact (proj1 (live_child _ _ _ L G)).
    assert (Hrec : forall q', matches p q' -> (exists u, q = u :: q') -> contains_tokens c q' = true).
    { intros q' M' (u & ->). apply IH; auto; [intros X; apply Hgt; right; exact X|].
      intros i Hi Hi2 v r Hv Hend. apply (Hsh (S i) Hi Hi2 v r Hv). cbn [firstn app]. apply ends_cons. eauto. }
    inversion M as [|? ? q' M'|u ? q' M'|u q']; subst; cbn [contains_tokens].
    + rewrite G. apply Hrec; eauto.
    + destruct (eq_dec u STAR) as [->|Ne].
      * change star with STAR in G. rewrite G. apply Hrec; eauto.
      * destruct (mget u (n_children n)) as [c2|] eqn:G2.
        -- exfalso. destruct (live_child n u c2 L G2) as (_ & r & Hr).
           apply (Hsh 0%nat eq_refl ltac:(cbn; congruence) u r eq_refl). cbn. apply ends_cons. eauto.
        -- change star with STAR in G. rewrite G. apply Hrec; eauto.
    + exfalso. apply Hgt. left. reflexivity.
Qed.

(** Tokens. *)
Lemma split_dot_ne b : split_dot b <> [].
Proof. destruct b as [|c b]; cbn; [discriminate|]. destruct (eq_dec c DOT); [discriminate|]. destruct (split_dot b); discriminate. Qed.

Lemma split_dot_nodot b : forall t, In t (split_dot b) -> ~ In DOT t.
Proof.
  induction b as [|c b IH]; cbn; intros t H.
  - destruct H as [<-|[]]. intros [].
  - destruct (eq_dec c DOT) as [->|Ne].
    + destruct H as [<-|H]; [intros []|apply IH, H].
    + destruct (split_dot b) as [|u us] eqn:E.
      * destruct H as [<-|[]]. intros [|[]]; congruence.
      * destruct H as [<-|H]; [intros [|X]; [congruence|exact (IH u (or_introl eq_refl) X)]|apply IH; right; exact H].
Qed.

Lemma join_split b : join (split_dot b) = b.
Proof.
  induction b as [|c b IH]; cbn; [reflexivity|].
  destruct (eq_dec c DOT) as [->|Ne].
  - pose proof (split_dot_ne b). destruct (split_dot b) as [|u us] eqn:E; [congruence|]. cbn [join app].
    rewrite <- IH. reflexivity.
  - pose proof (split_dot_ne b). destruct (split_dot b) as [|u us] eqn:E; [congruence|].
    destruct us; cbn in *; rewrite IH; reflexivity.
Qed.

Lemma split_app_dot t b : ~ In DOT t -> split_dot (t ++ DOT :: b) = t :: split_dot b.
Proof.
  induction t as [|c t IH]; intros H; cbn.
  - destruct (eq_dec DOT DOT); congruence.
  - destruct (eq_dec c DOT) as [->|Ne]; [exfalso; apply H; left; reflexivity|].
    rewrite IH; [reflexivity|]. intros X; apply H; right; exact X.
Qed.
Lemma split_nodot t : ~ In DOT t -> split_dot t = [t].
Proof.
  induction t as [|c t IH]; intros H; cbn; [reflexivity|].
  destruct (eq_dec c DOT) as [->|Ne]; [exfalso; apply H; left; reflexivity|].
  rewrite IH; [reflexivity|]. intros X; apply H; right; exact X.
Qed.

Lemma split_join ts : ts <> [] -> (forall t, In t ts -> ~ In DOT t) -> split_dot (join ts) = ts.
Proof.
  induction ts as [|t ts IH]; intros Hne H; [congruence|].
  destruct ts as [|u ts].
  - cbn. apply split_nodot, H. left; reflexivity.
  - change (join (t :: u :: ts)) with (t ++ DOT :: join (u :: ts)).
    rewrite split_app_dot by (apply H; left; reflexivity). f_equal. apply IH; [discriminate|]. intros x Hx. apply H. right. exact Hx.
Qed.

Lemma tokens_split s ts : tokens_of s ts <-> split_dot s = ts.
Proof.
  split.
  - intros (Hne & <- & H). apply split_join; assumption.
  - intros <-. split; [apply split_dot_ne|]. split; [apply join_split|]. apply split_dot_nodot.
Qed.

Lemma split_inj a b : split_dot a = split_dot b -> a = b.
Proof. intros H. rewrite <- (join_split a), <- (join_split b), H. reflexivity. Qed.

(** * Histories *)
Inductive paths : list tr_op -> list bytes -> Prop :=
| path_now ops t : paths (ops ++ [TSub t]) (trunc (split_dot t))
| path_sub ops p t : paths ops p -> paths (ops ++ [TSub t]) p
| path_unsub ops p t : paths ops p -> p <> split_dot t -> paths (ops ++ [TUnsub t]) p.

Lemma paths_inv_sub ops t p : paths (ops ++ [TSub t]) p <-> paths ops p \/ p = trunc (split_dot t).
Proof.
  split.
  - intros H. inversion H as [o t' E|o p' t' H' E|o p' t' H' Ne E]; apply app_inj_tail in E; destruct E as [-> E];
      inversion E; subst; auto.
  - intros [H | ->]; [apply path_sub; exact H|apply path_now].
Qed.
Lemma paths_inv_unsub ops t p : paths (ops ++ [TUnsub t]) p <-> paths ops p /\ p <> split_dot t.
Proof.
  split.
  - intros H. inversion H as [o t' E|o p' t' H' E|o p' t' H' Ne E]; apply app_inj_tail in E; destruct E as [-> E];
      inversion E; subst; auto.
  - intros [H Ne]. apply path_unsub; assumption.
Qed.
Lemma paths_nil p : ~ paths [] p.
Proof. intros H. inversion H as [o t' E|o p' t' H' E|o p' t' H' Ne E]; destruct o; discriminate. Qed.

Lemma held_inv_sub ops t p : held (ops ++ [TSub t]) p <-> held ops p \/ p = t.
Proof.
  split.
  - intros H. inversion H as [o t' E|o p' t' H' E|o p' t' H' Ne E]; apply app_inj_tail in E; destruct E as [-> E];
      inversion E; subst; auto.
  - intros [H | ->]; [apply held_sub; exact H|apply held_now].
Qed.
Lemma held_inv_unsub ops t p : held (ops ++ [TUnsub t]) p <-> held ops p /\ p <> t.
Proof.
  split.
  - intros H. inversion H as [o t' E|o p' t' H' E|o p' t' H' Ne E]; apply app_inj_tail in E; destruct E as [-> E];
      inversion E; subst; auto.
  - intros [H Ne]. apply held_unsub; assumption.
Qed.
Lemma held_nil p : ~ held [] p.
Proof. intros H. inversion H as [o t' E|o p' t' H' E|o p' t' H' Ne E]; destruct o; discriminate. Qed.

Lemma run_snoc ops o : trie_run (ops ++ [o]) = trie_op (trie_run ops) o.
Proof. unfold trie_run. rewrite fold_left_app. reflexivity. Qed.

Lemma run_ok ops : live (trie_run ops) /\ catch_ok false (trie_run ops) /\ (forall p, ends (trie_run ops) p <-> paths ops p).
Proof.
  induction ops as [|o ops IH] using rev_ind.
  - split; [apply live_new|]. split; [apply catch_new|]. intros p. split; [|intros H; exfalso; exact (paths_nil _ H)].
    intros (m & E & H). destruct p; cbn in E; [inversion E; subst; discriminate|discriminate].
  - rewrite run_snoc. destruct IH as (L & C & E). destruct o as [t|t]; cbn [trie_op].
    + unfold trie_insert. split; [apply insert_live, L|]. split; [apply insert_catch; [exact C|discriminate]|].
      intros p. rewrite insert_ends, E, paths_inv_sub. reflexivity.
    + unfold trie_remove. destruct (remove_spec (split_dot t) _ L) as (L' & E' & _). split; [exact L'|].
      split; [apply remove_catch, C|]. intros p. rewrite E', E, paths_inv_unsub. reflexivity.
Qed.

Lemma trunc_id ts : gt_only_last ts -> trunc ts = ts.
Proof.
  unfold gt_only_last. induction ts as [|t ts IH]; cbn [trunc]; [reflexivity|]. intros H.
  destruct ts as [|u ts]; [destruct (eq_dec t GT); reflexivity|].
  destruct (eq_dec t GT) as [->|Ne]; [exfalso; apply H; left; reflexivity|]. f_equal. apply IH.
  intros X. apply H. right. exact X.
Qed.

Lemma literal_gt ts : literal ts -> gt_only_last ts.
Proof. intros [_ H] X. apply H. destruct ts as [|a ts]; [destruct X|].
  rewrite (app_removelast_last (l := a :: ts) []) by discriminate. apply in_or_app. left. exact X. Qed.

Lemma paths_held ops : subs_all gt_only_last ops -> forall t, paths ops (split_dot t) <-> held ops t.
Proof.
  induction ops as [|o ops IH] using rev_ind; intros Hs t.
  - split; intros H; exfalso; [exact (paths_nil _ H)|exact (held_nil _ H)].
  - assert (Hs' : subs_all gt_only_last ops).
    { intros u us Hu Ht. apply (Hs u us); [apply in_or_app; left; exact Hu|exact Ht]. }
    destruct o as [u|u].
    + rewrite paths_inv_sub, held_inv_sub, (IH Hs').
      rewrite (trunc_id (split_dot u)); [|apply (Hs u); [apply in_or_app; right; left; reflexivity|apply tokens_split; reflexivity]].
      split; (intros [H|H]; [left; exact H|right]); [apply split_inj; exact H|congruence].
    + rewrite paths_inv_unsub, held_inv_unsub, (IH Hs').
      split; (intros [H Ne]; split; [exact H|]); [congruence|intros X; apply Ne, split_inj, X].
Qed.

Lemma paths_is_split ops : subs_all gt_only_last ops -> forall p, paths ops p -> exists t, p = split_dot t.
Proof.
  intros Hs p H. induction H as [ops t|ops p t H IH|ops p t H IH].
  - exists t. apply trunc_id. apply (Hs t); [apply in_or_app; right; left; reflexivity|apply tokens_split; reflexivity].
  - apply IH. intros u us Hu Ht. apply (Hs u us); [apply in_or_app; left; exact Hu|exact Ht].
  - apply IH. intros u us Hu Ht. apply (Hs u us); [apply in_or_app; left; exact Hu|exact Ht].
Qed.
