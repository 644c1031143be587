(** The joint model of a subscriber and a publisher socket: reading everything that is on its way. *)
From Coq Require Import ZArith Permutation Sorting.Sorted.
From Verif Require Import Model.Base Model.Map Model.Framed Model.WirePubSub Model.WireAuth Model.Compression Model.Handshake Model.JoinMap Model.Trie Model.PubDriver Model.SubDriver Model.Net Model.PubSubNet
  Spec.Wire Spec.Stream Spec.AuthSpec Spec.CompressSpec Spec.PubSpec Spec.SubSpec Spec.NetSpec2
  Proofs.BaseP Proofs.MapP Proofs.FramedP Proofs.FramedP2 Proofs.PubSubP Proofs.AuthP Proofs.NetP
  Proofs.PubNetP Proofs.SubNetP Proofs.PubSubNetP Proofs.PubSubNetP2 Proofs.PubSubNetP3 Proofs.PubSubNetP4 Proofs.PubSubNetP5.
Local Open Scope N_scope.

(** ** Readers *)
Definition idle_at (s : ps_state) (b : bytes) : Prop := ps_decode s b = DNone s b \/ exists e, ps_decode s b = DErr e s b.
Definition J (f : framed ps_state) : Prop := ps_ok (fr_codec f) /\ (fr_readable f = false \/ fr_errored f = true -> idle_at (fr_codec f) (fr_buf f)).
Definition ps_stuck s b s' r (H : ps_ok s) : ps_decode s b = DNone s' r -> ps_decode s' r = DNone s' r := none_stuck ps_decode ps_ok ps_w ps_incremental s b s' r H.
Lemma J_new : J (framed_new PSHeader).
Proof. split; [exact I|]. intros _. left. reflexivity. Qed.
Lemma front_J f r f' : J f -> framed_front ps_decode PSIo f = (r, f') -> J f' /\ (r = None -> fr_errored f' = false /\ fr_readable f' = false).
Proof.
  intros [Ok Jr]. unfold framed_front. pose proof (ps_decode_spec (fr_codec f) (fr_buf f) Ok) as Sp.
  destruct (fr_errored f) eqn:Er; [intros H; inversion H; subst; split; [split; cbn; [exact Ok|]; intros _; apply Jr; right; reflexivity|discriminate]|].
  destruct (fr_readable f) eqn:Rd; [|intros H; inversion H; subst; split; [split; [exact Ok|]; intros _; apply Jr; left; reflexivity|auto]].
  assert (Dn : forall s b, ps_decode (fr_codec f) (fr_buf f) = DNone s b -> ps_ok s /\ idle_at s b).
  { intros s b E. rewrite E in Sp. split; [apply Sp|]. left. eapply ps_stuck; eauto. }
  assert (De : forall e s b, ps_decode (fr_codec f) (fr_buf f) = DErr e s b -> ps_ok s /\ idle_at s b).
  { intros e s b E. rewrite E in Sp. destruct Sp as (-> & -> & _). split; [exact Ok|]. right. eauto. }
  assert (Dm : forall m s b, ps_decode (fr_codec f) (fr_buf f) = DMsg m s b -> ps_ok s).
  { intros m s b E. rewrite E in Sp. apply Sp. }
  destruct (fr_eof f); destruct (ps_decode (fr_codec f) (fr_buf f)) as [s b|m s b|e s b|] eqn:Dc; try contradiction;
    try (destruct b as [|b0 bt]); intros H; inversion H; subst; (split; [|try discriminate; auto]); split; cbn [fr_codec fr_buf fr_readable fr_errored];
    try (eapply Dm; eauto; fail); try (intros [X|X]; discriminate); try (eapply Dn; eauto; fail); try (eapply De; eauto; fail); try (intros _; eapply Dn; eauto; fail); try (intros _; eapply De; eauto).
Qed.
Lemma poll_J input : forall f r f' rest, J f -> framed_poll ps_decode PSIo f input = (r, f', rest) -> J f'.
Proof.
  induction input as [|i input IH]; intros f r f' rest Hj; rewrite framed_poll_unfold; destruct (framed_front ps_decode PSIo f) as [[r0|] g] eqn:E; destruct (front_J _ _ _ Hj E) as [Hg Hn]; intros H.
  - inversion H; subst. exact Hg.
  - inversion H; subst. exact Hg.
  - inversion H; subst. exact Hg.
  - destruct (Hn eq_refl) as [N1 N2]. pose proof Hg as [G1 G2]. destruct i as [[|x c]| |].
    + destruct (fr_eof g); [inversion H; subst; exact Hg|]. eapply IH; [|exact H]. split; [exact G1|]. cbn. intros [X|X]; [discriminate|congruence].
    + eapply IH; [|exact H]. split; [exact G1|]. cbn. intros [X|X]; [discriminate|congruence].
    + inversion H; subst. exact Hg.
    + inversion H; subst. split; [exact G1|]. cbn. intros _. apply G2. left. exact N2.
Qed.
Lemma end_poll_J input a r b : J (en_fr a) -> ps_poll input a = (r, b) -> J (en_fr b).
Proof.
  unfold ps_poll, end_poll. destruct (framed_poll ps_decode PSIo (en_fr a) input) as [[r0 f] rest] eqn:P. intros G H; inversion H; subst. cbn [en_fr]. eapply poll_J; eauto.
Qed.

(** No error and no end of the stream: stays so, when only data arrive. *)
Definition sound (f : framed ps_state) : Prop := fr_errored f = false /\ fr_eof f = false.
Lemma pending_unreadable input : forall f f' rest, framed_poll ps_decode PSIo f input = (PPending, f', rest) -> fr_readable f' = false.
Proof.
  assert (Fr : forall f f', framed_front ps_decode PSIo f = (None, f') -> fr_readable f' = false).
  { intros f f'. unfold framed_front. destruct (fr_errored f); [discriminate|]. destruct (fr_readable f) eqn:R; [|intros H; inversion H; subst; exact R].
    destruct (fr_eof f); destruct (ps_decode (fr_codec f) (fr_buf f)) as [s [|]|m s b|e s b|]; intros H; inversion H; subst; reflexivity. }
  assert (Fp : forall f f', framed_front ps_decode PSIo f <> (Some PPending, f')).
  { intros f f'. unfold framed_front. destruct (fr_errored f); [discriminate|]. destruct (fr_readable f) eqn:R; [|discriminate].
    destruct (fr_eof f); destruct (ps_decode (fr_codec f) (fr_buf f)) as [s [|]|m s b|e s b|]; discriminate. }
  induction input as [|i input IH]; intros f f' rest; rewrite framed_poll_unfold; destruct (framed_front ps_decode PSIo f) as [[r|] g] eqn:E; intros H.
  - inversion H; subst. destruct (Fp _ _ E).
  - inversion H; subst. eapply Fr; eauto.
  - inversion H; subst. destruct (Fp _ _ E).
  - destruct i as [[|x c]| |].
    + destruct (fr_eof g); [discriminate|]. eapply IH; eauto.
    + eapply IH; eauto.
    + inversion H; subst. eapply Fr; eauto.
    + discriminate.
Qed.
Lemma front_sound f r f' : sound f -> framed_front ps_decode PSIo f = (r, f') -> match r with None | Some (PItem _) => sound f' | _ => True end.
Proof.
  intros [S1 S2]. unfold framed_front. rewrite S1, S2. destruct (fr_readable f); [|intros H; inversion H; subst; split; assumption].
  destruct (ps_decode (fr_codec f) (fr_buf f)); intros H; inversion H; subst; exact I || split; reflexivity.
Qed.
Lemma poll_sound input : (forall i, In i input -> exists b t, i = IoData (b :: t)) -> forall f r f' rest, sound f -> framed_poll ps_decode PSIo f input = (r, f', rest) ->
  match r with PItem _ | PPending => sound f' | _ => True end.
Proof.
  induction input as [|i input IH]; intros Dt f r f' rest Hj; rewrite framed_poll_unfold; destruct (framed_front ps_decode PSIo f) as [[r0|] g] eqn:E; pose proof (front_sound _ _ _ Hj E) as Hg; cbn in Hg; intros H.
  - inversion H; subst. destruct r; auto. exfalso. unfold framed_front in E. destruct (fr_errored f), (fr_readable f), (fr_eof f), (ps_decode (fr_codec f) (fr_buf f)) as [s [|]|m s b|e s b|]; discriminate.
  - inversion H; subst. exact Hg.
  - inversion H; subst. destruct r; auto. exfalso. unfold framed_front in E. destruct (fr_errored f), (fr_readable f), (fr_eof f), (ps_decode (fr_codec f) (fr_buf f)) as [s [|]|m s b|e s b|]; discriminate.
  - destruct (Dt i (or_introl eq_refl)) as (b & t & ->). eapply IH; [intros; apply Dt; right; assumption| |exact H]. split; [apply Hg|reflexivity].
Qed.

Definition now_io (b : pse) : list io := match pp_todo (en_in b) with [] => [] | t => [IoData t] end.
Lemma now_data b : forall i, In i (now_io b) -> exists x t, i = IoData (x :: t).
Proof. intros i. unfold now_io. destruct (pp_todo (en_in b)) as [|x t]; [intros []|]. intros [<-|[]]. eauto. Qed.
Lemma now_offered b : pipe_offers (now_io b) (en_in b) = true.
Proof. unfold now_io, pipe_offers. apply prefixb_ok. exists []. destruct (pp_todo (en_in b)) eqn:E; [reflexivity|]. unfold io_data. cbn [map concat]. rewrite !app_nil_r. reflexivity. Qed.
Lemma now_received b : received (now_io b) = pp_todo (en_in b).
Proof. unfold now_io. destruct (pp_todo (en_in b)); [reflexivity|]. unfold received; cbn [map concat]. rewrite app_nil_r. reflexivity. Qed.

Lemma ps_held_decode s x : ps_ok s -> ps_decode PSHeader (ps_held s ++ x) = ps_decode s x.
Proof.
  destruct s as [|[h|]]; [reflexivity| |intros []]. intros (H1 & H2 & H3 & H4 & H5). unfold ps_held. change (ps_decode PSHeader) with ps_decode_header. change (ps_decode (PSPayload (Some h)) x) with (ps_decode_payload (Some h) x).
  rewrite (put_be_2 (psh_topic_size h)). cbn [app]. rewrite <- !app_assoc.
  assert (Eg : get_be [byte_of (psh_topic_size h / 256); byte_of (psh_topic_size h)] = psh_topic_size h) by (rewrite <- put_be_2; apply (get_put 2); exact H2).
  rewrite ps_header_full; try apply put_be_length.
  - f_equal. f_equal. unfold mk_hdr. rewrite ?Eg. rewrite (get_put 8), (get_put 4 (psh_seq h)), (get_put 4 (psh_size h)) by assumption. destruct h; reflexivity.
  - rewrite Eg. symmetry. exact H1.
Qed.

Lemma poll_now a b : pdir a b -> Forall ps_wf (en_sent a) -> en_hs b = en_greet a -> J (en_fr b) -> sound (en_fr b) ->
  exists r b', ps_poll (now_io b) b = (r, b') /\ sound (en_fr b') /\
    ((r = PPending /\ en_items b = en_sent a /\ en_items b' = en_items b) \/ (exists m rest, r = PItem m /\ en_items b' = en_items b ++ [m] /\ en_sent a = en_items b ++ m :: rest)).
Proof.
  intros R W H Jb G. destruct (dir_items a b R W (or_introl H)) as [rest E]. pose proof R as (D1 & D2 & D3 & D4).
  assert (B : ps_held (fr_codec (en_fr b)) ++ fr_buf (en_fr b) ++ pp_todo (en_in b) = pencs rest).
  { rewrite D3, H, <- !app_assoc in D1. apply app_inv_head in D1. rewrite E, encs_app in D1. apply app_inv_head in D1. exact D1. }
  assert (Wr : Forall ps_wf rest) by (rewrite E in W; apply Forall_app in W; apply W).
  assert (St : stream ps_decode (fr_codec (en_fr b)) (fr_buf (en_fr b) ++ pp_todo (en_in b)) rest (TMore PSHeader [])).
  { eapply stream_eqv; [apply ps_held_decode; exact D2|]. rewrite B. pose proof (ps_stream_app rest [] [] (TMore PSHeader []) Wr) as X. rewrite !app_nil_r in X. apply X. apply st_more. reflexivity. }
  destruct G as (G1 & G2). destruct Jb as [J1 J2].
  assert (G3 : fr_readable (en_fr b) = false -> ps_decode (fr_codec (en_fr b)) (fr_buf (en_fr b)) = DNone (fr_codec (en_fr b)) (fr_buf (en_fr b))).
  { intros Rd. destruct (J2 (or_introl Rd)) as [K|(e & K)]; [exact K|]. exfalso. pose proof (ps_decode_spec _ (fr_buf (en_fr b)) J1) as Sp. rewrite K in Sp. destruct Sp as (_ & _ & _ & Sp & _). specialize (Sp (pp_todo (en_in b))).
    inversion St; subst; congruence. }
  assert (I0 : Inv ps_decode ps_ok (en_fr b) (now_io b) rest (TMore PSHeader [])).
  { split; [exact J1|]. split; [exact G1|]. split; [exact G2|]. split; [|split; [rewrite now_received; exact St|exact G3]].
    unfold now_io. destruct (pp_todo (en_in b)); constructor; [exact I|constructor]. }
  pose proof (poll_inv ps_decode PSIo ps_ok ps_w ps_incremental (now_io b) (en_fr b) rest _ StillOpen I0) as P. cbn [ending_io] in P. rewrite !app_nil_r in P.
  pose proof (now_offered b) as Of.
  destruct (ps_poll (now_io b) b) as [r b'] eqn:Pl. exists r, b'. split; [reflexivity|].
  destruct (pdir_poll a b _ _ _ R Of Pl) as (_ & R' & It & _).
  unfold ps_poll, end_poll in Pl. destruct (framed_poll ps_decode PSIo (en_fr b) (now_io b)) as [[r0 f] i'] eqn:Fp. inversion Pl; subst r0 b'; clear Pl. cbn [en_items en_fr] in *.
  pose proof (poll_sound _ (now_data b) _ _ _ _ (conj G1 G2) Fp) as Gd.
  destruct r as [m|e| | |].
  - destruct P as (ms' & body' & -> & _). split; [exact Gd|]. right. exists m, ms'. auto.
  - exfalso. destruct P as (X & ->). cbn in X. discriminate.
  - exfalso. destruct P as (X & ->). cbn in X. discriminate.
  - split; [exact Gd|]. left. split; [reflexivity|]. split; [|apply app_nil_r]. destruct P as (body' & _ & If & X).
    assert (rest = []); [|subst rest; rewrite E, app_nil_r; reflexivity].
    destruct X as [X|(_ & _ & _ & X & _)]; [|exact X]. assert (body' = []). { destruct body'; [reflexivity|]. exfalso. unfold now_io in X. destruct (pp_todo (en_in b)); cbn in X; lia. } subst body'.
    destruct If as (_ & _ & _ & _ & Sf & Rf). apply pending_unreadable in Fp. specialize (Rf Fp). cbn [received map concat] in Sf. rewrite app_nil_r in Sf. inversion Sf; subst; congruence.
  - contradiction.
Qed.

(** If everything was read, nothing is on its way. *)
Lemma all_items a b : pdir a b -> en_hs b = en_greet a -> en_items b = en_sent a -> pp_todo (en_in b) = [] /\ fr_codec (en_fr b) = PSHeader /\ fr_buf (en_fr b) = [].
Proof.
  intros (D1 & D2 & D3 & D4) H E. rewrite D3, H, E in D1. rewrite <- !app_assoc in D1. apply app_inv_head in D1. rewrite <- (app_nil_r (pencs (en_sent a))) in D1 at 2. apply app_inv_head in D1.
  apply app_eq_nil in D1. destruct D1 as [Hh D1]. apply app_eq_nil in D1. destruct D1 as [Hb Ht]. split; [exact Ht|]. split; [|exact Hb]. destruct (fr_codec (en_fr b)) as [|[h|]]; [reflexivity|discriminate|destruct D2].
Qed.
Lemma hs_both token auth k : link_ok token auth k -> en_on (lk_c k) = true -> en_on (lk_s k) = true -> en_hs (lk_s k) = en_greet (lk_c k) /\ en_hs (lk_c k) = en_greet (lk_s k).
Proof.
  intros (_ & _ & _ & (b & Gc) & C & _ & _ & S) Oc Os. specialize (C Oc). specialize (S Os). destruct token as [t|], auth as [a|].
  - destruct C as [C _], S as [S _]. auto.
  - destruct C as [_ C], S as [S _]. congruence.
  - destruct S as [_ (a' & t & _ & X & _)]. discriminate.
  - destruct S as [S1 S2]. rewrite C, S1, S2, Gc. split; reflexivity.
Qed.

(** ** All readers are fine in this sense *)
Definition JL (ls : list (N * plink)) : Prop := forall l k, mget l ls = Some k -> J (en_fr (lk_c k)) /\ J (en_fr (lk_s k)).
Definition frs (k : plink) := (en_fr (lk_c k), en_fr (lk_s k)).
Lemma JL_view ls ls' : same_view frs ls ls' -> JL ls -> JL ls'.
Proof. intros V H l k G. destruct (view_get _ _ _ _ _ V G) as (k0 & G0 & E). unfold frs in E. inversion E as [[E1 E2]]. rewrite E1, E2. eapply H; eauto. Qed.
Lemma JL_set ls l k : JL ls -> J (en_fr (lk_c k)) -> J (en_fr (lk_s k)) -> JL (mset l k ls).
Proof. intros H J1 J2 l' k' G. rewrite mget_set in G. destruct (eq_dec l' l); [inversion G; subst; auto|eapply H; eauto]. Qed.
Lemma on_link_frs cids ls cid f : (forall k, frs (f k) = frs k) -> same_view frs ls (on_link cids ls cid f).
Proof. intros H. unfold on_link. destruct (mget cid cids) as [l|]; [|apply same_view_refl]. destruct (mget l ls) as [k|] eqn:G; [|apply same_view_refl]. eapply same_view_set; eauto. Qed.
Lemma c_routes_frs cids os : forall ls, same_view frs ls (fold_left (c_route cids) os ls).
Proof.
  induction os as [|x os IH]; intros ls; cbn [fold_left]; [apply same_view_refl|]. eapply same_view_trans; [|apply IH].
  destruct x as [| | | | | | | | | |cid m [|]| | | | | | | | | | |]; cbn [c_route]; try apply same_view_refl. apply on_link_frs. reflexivity.
Qed.
Lemma s_routes_frs cids os : forall ls, same_view frs ls (fold_left (s_route cids) os ls).
Proof.
  induction os as [|x os IH]; intros ls; cbn [fold_left]; [apply same_view_refl|]. eapply same_view_trans; [|apply IH].
  destruct x; cbn [s_route]; try apply same_view_refl; try (destruct ok; [|apply same_view_refl]); try (apply on_link_frs; reflexivity); idtac.
Qed.

Section Z.
Variables (token : option bytes) (ingress initial : N) (D : decompressors)
          (max : option N) (buf min : N) (auth : option (bytes -> bool)) (co : option compressor).
Notation run := (z_run token ingress initial D max buf min auth co).
Notation step := (z_step token ingress initial D max buf min auth co).
Notation zsub := (z_sub token ingress initial D).
Notation zpub := (z_pub max buf min auth co).

Lemma sub_JL ev z : JL (z_links z) -> JL (z_links (zsub ev z)).
Proof. intros H. unfold z_sub. destruct (sb_act token ingress initial D (z_c z) ev). cbn [z_links]. eapply JL_view; [apply c_routes_frs|exact H]. Qed.
Lemma pub_JL ev z : JL (z_links z) -> JL (z_links (zpub ev z)).
Proof. intros H. unfold z_pub. destruct (pb_act max buf min auth co (z_s z) ev). cbn [z_links]. eapply JL_view; [apply s_routes_frs|exact H]. Qed.
Lemma step_JL z ev : JL (z_links z) -> JL (z_links (step z ev)).
Proof.
  intros H. destruct ev as [f| | |a now| |a ok|k r order|cid e i|from|k r|k i b|cid e i|t p|t p| ]; cbn [z_step]; try (apply sub_JL; exact H); try (apply pub_JL; exact H).
  - unfold z_connected. destruct (smem a _); [|exact H]. destruct (mget a (z_tasks z)); [exact H|]. cbn [z_links]. apply JL_set; [exact H| |]; apply J_new.
  - unfold z_join. destruct (nth_error _ _) as [a|]; [|exact H]. destruct (mget a (z_tasks z)) as [[l ok]|]; [|apply sub_JL; exact H].
    destruct (mget l (z_links z)) as [lk|] eqn:G; [|exact H]. destruct r as [| |so i]; try exact H. destruct (pipe_offers i _); [|exact H].
    destruct (auth_client token ok i) as [[[] w] rest]; first [exact H | apply (sub_JL (YJoin k (JConn ok i) order) z H) | idtac].
    pose proof (sub_JL (YJoin k (JConn ok i) order) z H) as H1. set (z1 := z_end_task a _). assert (E1 : z_links z1 = z_links (zsub (YJoin k (JConn ok i) order) z)) by reflexivity.
    destruct (_ =? _); [rewrite E1; exact H1|]. cbn [z_links]. destruct (H _ _ G) as [Ja Jb]. apply JL_set; [rewrite E1; exact H1|exact Ja|exact Jb].
  - unfold z_subsess. destruct (mget cid _) as [x|]; [|exact H]. destruct (sc_alive x); [|exact H]. destruct (z_link_of cid (z_ccids z) z) as [[l k]|] eqn:Lk; [|apply sub_JL; exact H].
    destruct (pipe_offers i _); [|exact H]. destruct (ps_poll i (lk_c k)) as [r c] eqn:P. apply sub_JL. cbn [z_set_link z_links].
    assert (G : mget l (z_links z) = Some k) by (unfold z_link_of in Lk; destruct (mget cid (z_ccids z)); [|discriminate]; destruct (mget n (z_links z)) eqn:G; inversion Lk; subst; exact G).
    destruct (H _ _ G) as [Ja Jb]. apply JL_set; [exact H|exact (end_poll_J _ _ _ _ Ja P)|exact Jb].
  - unfold z_accept. destruct from as [l|]; [|apply pub_JL; exact H]. destruct (smem l (z_backlog z)); [|exact H]. cbn [z_links]. apply pub_JL. exact H.
  - unfold z_auth. destruct (nth_error _ _) as [cid|]; [|exact H]. destruct auth as [a|] eqn:Au; [|exact H]. rewrite <- Au. destruct (z_link_of cid (z_scids z) z) as [[l k0]|] eqn:Lk; [|apply pub_JL; exact H].
    destruct (pipe_offers i _); [|exact H].
    assert (G : mget l (z_links z) = Some k0) by (unfold z_link_of in Lk; destruct (mget cid (z_scids z)); [|discriminate]; destruct (mget n (z_links z)) eqn:G; inversion Lk; subst; exact G).
    destruct (H _ _ G) as [Ja Jb]. destruct (auth_server a b i) as [[[id| | |] w] rest]; apply pub_JL; try exact H; cbn [z_set_link z_links]; (apply JL_set; [exact H|exact Ja|exact Jb]).
  - unfold z_pubsess. destruct (mget cid _) as [x|]; [|exact H]. destruct (z_link_of cid (z_scids z) z) as [[l k]|] eqn:Lk; [|apply pub_JL; exact H].
    destruct (s_wants_next buf e (z_s z) x); [|apply pub_JL; exact H]. destruct (pipe_offers i _); [|exact H]. destruct (ps_poll i (lk_s k)) as [r c] eqn:P. apply pub_JL. cbn [z_set_link z_links].
    assert (G : mget l (z_links z) = Some k) by (unfold z_link_of in Lk; destruct (mget cid (z_scids z)); [|discriminate]; destruct (mget n (z_links z)) eqn:G; inversion Lk; subst; exact G).
    destruct (H _ _ G) as [Ja Jb]. apply JL_set; [exact H|exact Ja|exact (end_poll_J _ _ _ _ Jb P)].
Qed.
Lemma run_JL evs : JL (z_links (run evs)).
Proof.
  unfold z_run. assert (K : forall evs z, JL (z_links z) -> JL (z_links (fold_left step evs z))) by (clear evs; induction evs as [|ev evs IH]; intros z H; cbn [fold_left]; [exact H|apply IH, step_JL, H]).
  apply K. intros l k G. discriminate.
Qed.
End Z.
