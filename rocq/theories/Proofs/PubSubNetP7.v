(** The joint model of a subscriber and a publisher socket: from publish() to the subscriber's application. *)
From Coq Require Import ZArith Permutation Sorting.Sorted.
From Verif Require Import Model.Base Model.Map Model.Framed Model.WirePubSub Model.WireAuth Model.Compression Model.Handshake Model.JoinMap Model.Utf8 Model.Trie Model.PubDriver Model.SubDriver Model.Net Model.PubSubNet
  Spec.Wire Spec.Stream Spec.Utf8Spec Spec.CompressSpec Spec.Topics Spec.PubSpec Spec.SubSpec Spec.NetSpec2
  Proofs.BaseP Proofs.MapP Proofs.Utf8P Proofs.SubDriverP9 Proofs.PubNetP Proofs.SubNetP Proofs.PubSubNetP3 Proofs.PubSubNetP6.
From Verif Require Proofs.PubDriverP Proofs.PubDriverP5 Proofs.SubDriverP2 Proofs.SubDriverP4 Proofs.SubDriverP7 Proofs.T_Pub Proofs.T_Sub Proofs.T_Compress Proofs.T_Trie.
Local Open Scope N_scope.

(** * Subsequences *)
Lemma subseq_nil {A} (l : list A) : subseq l [] -> l = []. Proof. intros H. inversion H. reflexivity. Qed.
Lemma subseq_in {A} (a b : list A) x : subseq a b -> In x a -> In x b.
Proof. induction 1; intros Hx; [destruct Hx|destruct Hx as [->|Hx]; [left; reflexivity|right; auto]|right; auto]. Qed.
Lemma subseq_map_mono {A B} (f : A -> B) a b : subseq a b -> subseq (map f a) (map f b).
Proof. induction 1; cbn; constructor; auto. Qed.
Lemma prefix_subseq {A} (a b : list A) : prefix_of a b -> subseq a b.
Proof. intros [r ->]. apply subseq_prefix. Qed.
Lemma subseq_forall2 {A B} (R : A -> B -> Prop) (b' b : list B) : subseq b' b -> forall a, Forall2 R a b -> exists a', subseq a' a /\ Forall2 R a' b'.
Proof.
  induction 1 as [l|x l l' H IH|x l l' H IH]; intros a F.
  - exists []. split; constructor.
  - inversion F as [|y x' a0 l0 Hy Fr]; subst. destruct (IH _ Fr) as (a' & S & G). exists (y :: a'). split; constructor; auto.
  - inversion F as [|y x' a0 l0 Hy Fr]; subst. destruct (IH _ Fr) as (a' & S & G). exists a'. split; [constructor; exact S|exact G].
Qed.
Lemma forall2_compose {A B C} (R : A -> B -> Prop) (S : B -> C -> Prop) a b : Forall2 R a b -> forall c, Forall2 S b c -> Forall2 (fun x z => exists y, R x y /\ S y z) a c.
Proof. induction 1; intros c F; inversion F; subst; constructor; eauto. Qed.
Lemma forall2_mono {A B} (R S : A -> B -> Prop) a b : (forall x y, In x a -> In y b -> R x y -> S x y) -> Forall2 R a b -> Forall2 S a b.
Proof. intros H F. induction F; constructor; [apply H; auto; now left|]. apply IHF. intros; apply H; auto; now right. Qed.
Lemma forall2_eq {A} (a b : list A) : Forall2 eq a b -> a = b. Proof. induction 1; congruence. Qed.
Lemma forall2_map_r {A B C} (f : B -> C) (R : A -> C -> Prop) a b : Forall2 (fun x y => R x (f y)) a b <-> Forall2 R a (map f b).
Proof. split; [induction 1; cbn; constructor; auto|]. revert a. induction b as [|y b IH]; intros a F; inversion F; subst; constructor; auto. Qed.
Lemma forall2_map_l {A B C} (f : A -> C) (R : C -> B -> Prop) a b : Forall2 (fun x y => R (f x) y) a b <-> Forall2 R (map f a) b.
Proof. split; [induction 1; cbn; constructor; auto|]. revert b. induction a as [|y a IH]; intros b F; inversion F; subst; constructor; auto. Qed.

Lemma skipn_nth {A} : forall n (l : list A) p, nth_error l n = Some p -> skipn n l = p :: skipn (S n) l.
Proof. induction n as [|n IH]; intros [|x l] p H; try discriminate; cbn in H; [injection H as ->; reflexivity|]. apply IH in H. exact H. Qed.
Lemma subseq_skip {A} (a l : list A) n k : (n <= k)%nat -> subseq a (skipn k l) -> subseq a (skipn n l).
Proof.
  intros Le S. replace k with (k - n + n)%nat in S by lia. revert S. generalize (k - n)%nat as j. clear Le k. revert l. induction n as [|n IH]; intros l j.
  - rewrite Nat.add_0_r. cbn [skipn]. revert l. induction j as [|j IH]; intros l S; [exact S|]. destruct l as [|x l]; [exact S|]. constructor. apply IH. exact S.
  - destruct l as [|x l]; [rewrite skipn_nil; cbn; auto|]. rewrite Nat.add_succ_r. cbn [skipn]. apply IH.
Qed.
(** Elements at increasing positions form a subsequence. *)
Lemma picks {A B} (l : list A) (R : A -> B -> Prop) : forall is b n, StronglySorted N.lt is -> Forall (fun i => (n <= N.to_nat i)%nat) is ->
  Forall2 (fun i m => exists p, nth_error l (N.to_nat i) = Some p /\ R p m) is b -> exists ps, subseq ps (skipn n l) /\ Forall2 R ps b.
Proof.
  induction is as [|i is IH]; intros b n So Ge F; inversion F as [|i' m is' b' Hm Fr]; subst; [exists []; split; constructor|].
  destruct Hm as (p & Hp & Rp). inversion So as [|i' is' So' Lt]; subst. inversion Ge as [|i' is' Gi Gr]; subst.
  destruct (IH b' (S (N.to_nat i)) So') as (ps & Sp & Fp); [|exact Fr|].
  { eapply Forall_impl; [|exact Lt]. intros j Hj. cbn in Hj. lia. }
  exists (p :: ps). split; [|constructor; auto]. apply (subseq_skip _ _ _ (N.to_nat i) Gi). rewrite (skipn_nth _ _ _ Hp). constructor. exact Sp.
Qed.

(** * What was published is what the application announced *)
Definition pubs (evs : list pb_event) : list (bytes * bytes) := flat_map (fun ev => match ev with WPublish t p | WTryPublish t p => [(t, p)] | _ => [] end) evs.
Definition stands (min : N) (co : option compressor) (q : bytes * bytes) (m : pmsg) : Prop :=
  pm_topic m = fst q /\ (publish_outgoing min co (snd q) = Some (pm_body m) \/ try_publish_outgoing min co (snd q) = Some (pm_body m)).
Lemma published_app a b : published (a ++ b) = published a ++ published b. Proof. apply flat_map_app. Qed.
Lemma act_published max buf min auth co s ev s' o : pb_act max buf min auth co s ev = (s', o) ->
  exists qs, subseq qs (pubs [ev]) /\ Forall2 (stands min co) qs (published o).
Proof.
  assert (no : published o = [] -> exists qs, subseq qs (pubs [ev]) /\ Forall2 (stands min co) qs (published o)) by (intros ->; exists []; split; constructor).
  destruct ev as [cid e|k i b|k r| |t p|t p|]; cbn [pb_act]; intros H.
  - apply no. destruct (pb_session buf cid e s) as [[s1 o1] r1] eqn:E. inversion H; subst. unfold pb_session in E. destruct (mget cid (pb_sess s)) as [q|]; [|inversion E; subst; reflexivity].
    destruct (sn_iter buf cid e (pb_hist s) (pb_closed s) q) as [[[q' d] oo] r] eqn:It.
    assert (O : published oo = []).
    { revert It. unfold sn_iter. cbn [sn_seq sn_pos sn_pending sn_filter sn_flush]. destruct (s_ready e); [|intros It; inversion It; reflexivity].
      destruct (sn_pending q); [destruct (s_send e); intros It; inversion It; reflexivity|]. destruct (bcast_recv _ _ _ _).
      - destruct (nth_error _ _); [|intros It; inversion It; reflexivity]. destruct (trie_contains _ _); [destruct (pub_into_wire _ _ _ _)|]; intros It; inversion It; reflexivity.
      - intros It; inversion It; reflexivity.
      - destruct (s_next e); intros It; inversion It; reflexivity.
      - intros It; inversion It; reflexivity. }
    destruct r; inversion E; subst; rewrite ?published_app, O; reflexivity.
  - apply no. destruct (pb_auth auth k i b s) as [[s1 o1] r1] eqn:E. inversion H; subst. unfold pb_auth in E. destruct (nth_error (pb_auths s) k) as [cid|]; [|inversion E; reflexivity].
    destruct auth as [a|]; [|inversion E; reflexivity]. destruct (auth_server a b i) as [[[id| | |] w] rest]; cbn [pb_open] in E; inversion E; reflexivity.
  - apply no. destruct (pb_conn auth k r s) as [[s1 o1] r1] eqn:E. inversion H; subst. unfold pb_conn in E. destruct (nth_error (pb_conns s) k) as [cid|]; [|inversion E; reflexivity].
    destruct r as [[|]|]; destruct auth; cbn [pb_open] in E; inversion E; reflexivity.
  - apply no. unfold pb_accept in H. destruct max as [m|]; [destruct (_ <=? _)|]; inversion H; reflexivity.
  - unfold pb_send in H. destruct (publish_outgoing min co p) as [b|] eqn:E; [|inversion H; subst; apply no; reflexivity]. destruct (pb_closed s); inversion H; subst; [apply no; reflexivity|].
    exists [(t, p)]. split; [cbn; apply subseq_refl|]. constructor; [|constructor]. split; [reflexivity|]. left. exact E.
  - unfold pb_send in H. destruct (try_publish_outgoing min co p) as [b|] eqn:E; [|inversion H; subst; apply no; reflexivity]. destruct (pb_closed s); inversion H; subst; [apply no; reflexivity|].
    exists [(t, p)]. split; [cbn; apply subseq_refl|]. constructor; [|constructor]. split; [reflexivity|]. right. exact E.
  - apply no. destruct (pb_closed s); inversion H; reflexivity.
Qed.
Lemma run_published max buf min auth co : forall evs s s' o, pb_run max buf min auth co s evs = (s', o) ->
  exists qs, subseq qs (pubs evs) /\ Forall2 (stands min co) qs (published o).
Proof.
  induction evs as [|ev evs IH]; intros s s' o; cbn [pb_run]; [intros [= <- <-]; exists []; split; constructor|].
  destruct (pb_act max buf min auth co s ev) as [s1 o1] eqn:A. destruct (pb_run max buf min auth co s1 evs) as [s2 o2] eqn:R. intros [= <- <-].
  destruct (act_published _ _ _ _ _ _ _ _ _ A) as (q1 & S1 & F1). destruct (IH _ _ _ R) as (q2 & S2 & F2). exists (q1 ++ q2). split.
  - change (ev :: evs) with ([ev] ++ evs). unfold pubs. rewrite flat_map_app. apply subseq_app; assumption.
  - rewrite published_app. apply Forall2_app; assumption.
Qed.

Lemma pub_sevs max buf min auth co ev z : z_sevs (z_pub max buf min auth co ev z) = z_sevs z ++ [ev].
Proof. unfold z_pub. destruct (pb_act _ _ _ _ _ _ _). reflexivity. Qed.
Section Z.
Variables (token : option bytes) (ingress initial : N) (D : decompressors)
          (max : option N) (buf min : N) (auth : option (bytes -> bool)) (co : option compressor).
Notation step := (z_step token ingress initial D max buf min auth co).
Notation run := (z_run token ingress initial D max buf min auth co).
Lemma pubs_app a b : pubs (a ++ b) = pubs a ++ pubs b. Proof. apply flat_map_app. Qed.
Lemma sub_sevs ev z : z_sevs (z_sub token ingress initial D ev z) = z_sevs z.
Proof. unfold z_sub. destruct (sb_act _ _ _ _ _ _). reflexivity. Qed.
Lemma step_pubs z ev : pubs (z_sevs (step z ev)) = pubs (z_sevs z) ++ announced [ev].
Proof.
  assert (P : forall w z, pubs (z_sevs (z_pub max buf min auth co w z)) = pubs (z_sevs z) ++ pubs [w]) by (intros; rewrite pub_sevs; apply pubs_app).
  destruct ev as [f| | |a now| |a ok|k r order|c e i|from|k r|k i b|c e i|t p|t p|]; cbn [z_step]; cbn [announced flat_map app];
    rewrite ?sub_sevs, ?P, ?app_nil_r; try reflexivity.
  - unfold z_connected. destruct (smem _ _); [|reflexivity]. destruct (mget _ _); reflexivity.
  - unfold z_join. destruct (nth_error _ _) as [a|]; [|reflexivity]. destruct (mget a _) as [[l ok]|]; [|rewrite sub_sevs; reflexivity].
    destruct (mget l _) as [lk|]; [|reflexivity]. destruct r; try reflexivity. destruct (pipe_offers _ _); [|reflexivity].
    destruct (auth_client _ _ _) as [[[| | |] w] rest]; cbn [z_end_task z_sevs]; rewrite ?sub_sevs; try reflexivity.
    cbv zeta. match goal with |- context [if ?b then _ else _] => destruct b end; cbn [z_sevs z_end_task]; rewrite ?sub_sevs; reflexivity.
  - unfold z_subsess. destruct (mget c _) as [x|]; [|reflexivity]. destruct (sc_alive x); [|reflexivity]. destruct (z_link_of _ _ _) as [[l k]|]; [|rewrite sub_sevs; reflexivity].
    destruct (pipe_offers _ _); [|reflexivity]. destruct (ps_poll _ _). rewrite sub_sevs. reflexivity.
  - unfold z_accept. destruct from as [l|]; [|rewrite P; apply app_nil_r]. destruct (smem _ _); [|reflexivity]. cbv zeta. cbn [z_sevs]. rewrite P. apply app_nil_r.
  - unfold z_auth. destruct (nth_error _ _) as [cid|]; [|reflexivity]. destruct auth as [a|]; [|reflexivity]. destruct (z_link_of _ _ _) as [[l lk]|]; [|rewrite pub_sevs, pubs_app; apply app_nil_r].
    destruct (pipe_offers _ _); [|reflexivity]. destruct (auth_server _ _ _) as [[[id| | |] w] rest]; rewrite pub_sevs, pubs_app; apply app_nil_r.
  - unfold z_pubsess. destruct (mget c _) as [x|]; [|reflexivity]. destruct (z_link_of _ _ _) as [[l lk]|]; [|rewrite P; apply app_nil_r].
    destruct (s_wants_next _ _ _ _); [|rewrite P; apply app_nil_r]. destruct (pipe_offers _ _); [|reflexivity]. destruct (ps_poll _ _). rewrite P. apply app_nil_r.
Qed.
Lemma run_pubs evs : pubs (z_sevs (run evs)) = announced evs.
Proof.
  unfold z_run. change (announced evs) with (pubs (z_sevs z_init) ++ announced evs). generalize z_init. induction evs as [|ev evs IH]; intros z; cbn [fold_left]; [symmetry; apply app_nil_r|].
  rewrite IH, step_pubs, <- app_assoc. f_equal. unfold announced. rewrite <- flat_map_app. reflexivity.
Qed.

Hypothesis TOK : forall t, token = Some t -> blen t < 2 ^ 32.

Lemma stands_decompress q m w : (forall c, co = Some c -> inverse_of D c) -> stands min co q m -> carries m w ->
  ps_topic w = fst q /\ try_decompress D (ps_ctype w) (ps_payload w) = Some (snd q).
Proof.
  intros HD [E1 E2] (C1 & C2 & C3). split; [congruence|]. rewrite C2, C3. generalize (pm_body m) E2. clear - HD. intros o Ho.
  assert (X : (exists c, co = Some c /\ om_compress c (om_new (snd q)) = Some o) \/ o = om_new (snd q)).
  { destruct Ho as [Ho|Ho]; unfold publish_outgoing, try_publish_outgoing in Ho; try destruct (min <? blen (snd q)); destruct co as [c|]; eauto; inversion Ho; auto. }
  destruct X as [(c & E & X)| ->]; [|reflexivity].
  unfold om_compress in X. cbn [om_payload om_new] in X. destruct (cmp_fun c (snd q)) as [r|] eqn:Eq; [|discriminate].
  inversion X; subst. cbn [om_ctype om_payload]. apply T_Compress.decompress_inverse; auto.
Qed.

(** The frames written on a connection of the publisher stand for a subsequence of the calls. *)
Lemma sent_announced evs d : (forall c, co = Some c -> inverse_of D c) ->
  exists qs, subseq qs (announced evs) /\
  Forall2 (fun q w => ps_topic w = fst q /\ try_decompress D (ps_ctype w) (ps_payload w) = Some (snd q)) qs (sent_to d (z_slog (run evs))).
Proof using TOK.
  intros HD. pose proof (pub_is_run token ingress initial D max buf min auth co TOK evs) as R.
  destruct (run_published _ _ _ _ _ _ _ _ _ R) as (qs & S & F). rewrite run_pubs in S.
  destruct (T_Pub.C33_in_order_no_duplicates_pf _ _ _ _ _ _ _ _ d R) as (is & So & _ & Fi & _ & _).
  destruct (picks (published (z_slog (run evs))) carries is (sent_to d (z_slog (run evs))) 0 So) as (ps & Sp & Fp).
  { apply Forall_forall. intros; lia. }
  { exact Fi. }
  cbn [skipn] in Sp. destruct (subseq_forall2 _ _ _ Sp _ F) as (qs' & Sq & Fq). exists qs'. split; [eapply subseq_trans; [exact S|exact Sq]|].
  eapply forall2_mono; [|eapply forall2_compose; [exact Fq|exact Fp]]. intros q w _ _ (m & H1 & H2). eapply stands_decompress; eauto.
Qed.

Lemma taken_subseq d l : subseq (taken_on d l) (sent_to d l).
Proof using.
  clear. induction l as [|x l IH]; cbn [taken_on sent_to flat_map]; [constructor|]. apply subseq_app; [|exact IH].
  destruct x as [| | | | | |c m [|]| | | | | | | |]; try apply subseq_refl. destruct (eq_dec c d); [constructor|apply subseq_refl].
Qed.

Lemma received_frames evs c : ps_frames_fit (run evs) -> to_publisher (run evs) c ->
  received_on c (z_clog (run evs)) = [] \/ exists d, same_connection (run evs) c d /\ prefix_of (received_on c (z_clog (run evs))) (taken_on d (z_slog (run evs))).
Proof using TOK.
  intros Fit Tp. unfold to_publisher in Tp. destruct (mget c (z_ccids (run evs))) as [l|] eqn:Hc; [|congruence].
  destruct (mapped_dec (z_scids (run evs)) l) as [[d Hd]|Nd].
  - right. exists d. assert (Sc : same_connection (run evs) c d) by (exists l; auto). split; [exact Sc|]. apply (conn_frames token ingress initial D max buf min auth co TOK evs c d Fit Sc).
  - left. apply (conn_alone token ingress initial D max buf min auth co TOK evs c).
    + unfold to_publisher. congruence.
    + intros d (l' & H1 & H2). assert (l' = l) by congruence. subst. exact (Nd d H2).
Qed.

Lemma obtained_announced evs c : (forall k, co = Some k -> inverse_of D k) -> ps_frames_fit (run evs) -> (forall t p, In (t, p) (announced evs) -> utf8 t) ->
  to_publisher (run evs) c -> subseq (obtained c (z_clog (run evs))) (announced evs).
Proof using TOK.
  intros HD Fit U Tp. pose proof (sub_is_run token ingress initial D max buf min auth co TOK evs) as Rc.
  destruct (T_Sub.C43_in_order_unmodified_pf _ _ _ _ _ _ _ c Rc) as (ms & Sm & Fm).
  destruct (received_frames evs c Fit Tp) as [E|(d & _ & P)].
  - rewrite E in Sm. apply subseq_nil in Sm. subst. unfold obtained. inversion Fm. constructor.
  - destruct (sent_announced evs d HD) as (qs & Sq & Fq).
    assert (S2 : subseq ms (sent_to d (z_slog (run evs)))) by (eapply subseq_trans; [apply taken_subseq|]; eapply subseq_trans; [apply prefix_subseq, P|exact Sm]).
    destruct (subseq_forall2 _ _ _ S2 _ Fq) as (qs' & Sq' & Fq'). assert (Sa : subseq qs' (announced evs)) by (eapply subseq_trans; eassumption).
    replace (obtained c (z_clog (run evs))) with qs'; [exact Sa|]. unfold obtained. apply forall2_eq, (proj1 (forall2_map_r _ eq _ _)).
    eapply forall2_mono; [|eapply forall2_compose; [exact Fq'|exact Fm]]. intros [t p] [[a t'] p'] Hq _ (w & [H1 H2] & (_ & _ & H3 & H4)). cbn [fst snd] in *.
    assert (Ut : utf8 t) by (eapply U; eapply subseq_in; [exact Sa|exact Hq]). rewrite <- H1 in Ut. rewrite (H3 Ut) in *. congruence.
Qed.
End Z.
