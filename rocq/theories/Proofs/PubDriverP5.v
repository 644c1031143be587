(** Publisher: ended connections, the authentication gate, handshake replies, the byte counter, termination of polls. *)
From Coq Require Import ZArith ZifyBool ZifyNat ZifyN Permutation Sorting.Sorted.
From Verif Require Import Model.Base Model.Map Model.WirePubSub Model.Compression Model.Stats Model.Framed Model.WireAuth
  Model.Handshake Model.Trie Model.Utf8 Model.PubDriver Spec.CompressSpec Spec.PubSpec Proofs.BaseP Proofs.MapP Proofs.HandshakeP Proofs.PubDriverP Proofs.PubDriverP2 Proofs.PubDriverP3.
Local Open Scope N_scope.

(** [Phi] holds of each event together with what came before. *)
Definition every (Phi : list qout -> qout -> Prop) (L : list qout) : Prop := forall b x a, L = b ++ x :: a -> Phi b x.
Lemma every_nil Phi : every Phi [].
Proof. intros b x a E. destruct b; discriminate. Qed.
Lemma every_app Phi : forall o L, every Phi L -> (forall b x a, o = b ++ x :: a -> Phi (L ++ b) x) -> every Phi (L ++ o).
Proof.
  intros o L H K b x a E. destruct (split_app_list o _ _ _ _ E) as [(a' & _ & E2)|(b' & a' & E2 & -> & _)]; [now apply (H b x a')|eauto].
Qed.

Section P.
Variables (max : option N) (buf : N) (auth : option (bytes -> bool)).
Notation prim := (qprim max buf auth).

Definition deadE (b : list qout) (x : qout) : Prop := forall c, sub_acts_on c x -> ~ In c (sub_ended b).

Lemma sess_conn s c x : mget c (pb_sess s) = Some x -> In c (qconns s).
Proof using. intros G. unfold qconns. rewrite !in_app_iff. right. right. apply mget_keys. congruence. Qed.
Lemma auth_conn s k c : nth_error (pb_auths s) k = Some c -> In c (qconns s).
Proof using. intros G. apply nth_error_In in G. unfold qconns. rewrite !in_app_iff. auto. Qed.
Lemma conn_conn s k c : nth_error (pb_conns s) k = Some c -> In c (qconns s).
Proof using. intros G. apply nth_error_In in G. unfold qconns. rewrite !in_app_iff. auto. Qed.

Ltac splits E := repeat match goal with
  | H : _ :: _ = ?b ++ _ :: _ |- _ => destruct b as [|? b]; cbn [app] in H; injection H; clear H; intros; subst
  | H : [] = ?b ++ _ :: _ |- _ => destruct b; discriminate
  end.

Lemma dead_prim L s o s' : inv1 L s -> every deadE L -> prim s o s' -> every deadE (L ++ o).
Proof using.
  intros I H P. apply every_app; [exact H|]. intros b y a E c A. rewrite sub_ended_app, in_app_iff.
  destruct P as [cid x o d x' G St|cid x G|cid x m G Pm|cid x p G _ _ _ _ _ _|k cid au input ok id w rest G Au S|k cid au input ok w rest G Au S|
    k cid au input ok w rest G Au S|k cid G|k cid G Au|k cid G Au|m M Le|M|m C| |C|].
  - assert (Dj : ~ In cid (sub_ended L)) by (eapply inv1_disj; [exact I|eapply sess_conn; eauto]).
    destruct St; splits E; cbn in A |- *; subst; tauto.
  - splits E; destruct A.
  - assert (Dj : ~ In cid (sub_ended L)) by (eapply inv1_disj; [exact I|eapply sess_conn; eauto]). splits E; cbn in A |- *; subst; tauto.
  - assert (Dj : ~ In cid (sub_ended L)) by (eapply inv1_disj; [exact I|eapply sess_conn; eauto]). splits E; cbn in A |- *; subst; tauto.
  - assert (Dj : ~ In cid (sub_ended L)) by (eapply inv1_disj; [exact I|eapply auth_conn; eauto]). cbn [pb_open snd app] in E. splits E; cbn in A |- *; subst; tauto.
  - assert (Dj : ~ In cid (sub_ended L)) by (eapply inv1_disj; [exact I|eapply auth_conn; eauto]). splits E; cbn in A |- *; subst; tauto.
  - splits E; destruct A.
  - splits E; destruct A.
  - splits E.
  - assert (Dj : ~ In cid (sub_ended L)) by (eapply inv1_disj; [exact I|eapply conn_conn; eauto]). cbn [pb_open snd app] in E. splits E; cbn in A |- *; subst; tauto.
  - splits E; destruct A.
  - splits E; cbn in A |- *; subst. intros [X|[]]. pose proof (inv1_nodup_conns _ _ I) as Nd. destruct I as [Pm _ Fr _].
    assert (In (pb_next_cid s) (sub_admitted L)) by (rewrite Pm; apply in_or_app; auto). apply Fr in H0. lia.
  - splits E; destruct A.
  - splits E; destruct A.
  - splits E; destruct A.
  - splits E.
Qed.

(** ** The gate *)
Definition authed (L : list qout) (c : N) : Prop := auth = None \/ exists input id, In (QAuthed c input id) L.
Lemma authed_app L o c : authed L c -> authed (L ++ o) c.
Proof using. intros [H|(i & id & H)]; [left; exact H|right; exists i, id; apply in_or_app; left; exact H]. Qed.
Definition gateE (b : list qout) (x : qout) : Prop :=
  match x with
  | QOpen c | QTook c _ | QSkipped c _ _ | QControl c _ _ | QHanded c _ _ => authed b c
  | QAuthed c input id => exists au ok w rest, auth = Some au /\ auth_server au ok input = (AuthOk id, w, rest)
  | _ => True
  end.
Definition gate (L : list qout) (s : pb) : Prop := every gateE L /\ (forall c x, mget c (pb_sess s) = Some x -> authed L c).

Lemma gate_prim L s o s' : gate L s -> prim s o s' -> gate (L ++ o) s'.
Proof using.
  intros [H G0] P. 
  destruct P as [cid x o d x' G St|cid x G|cid x m G Pm|cid x p G _ _ _ _ _ _|k cid au input ok id w rest G Au S|k cid au input ok w rest G Au S|
    k cid au input ok w rest G Au S|k cid G|k cid G Au|k cid G Au|m M Le|M|m C| |C|];
  (split; [apply every_app; [exact H|]; intros b y a E; cbn [pb_open snd app] in E|
           try (intros c y G1; apply authed_app; exact (G0 _ _ G1))]).
  1: { specialize (G0 _ _ G). destruct St; splits E; cbn; rewrite ?app_nil_r; auto. }
  1: { cbn [set_sess pb_sess]. intros c y. rewrite mget_set. destruct (eq_dec c cid) as [->|]; intros G1; apply authed_app; eauto. }
  1: { splits E; exact Logic.I. }
  1: { cbn [pb_decr pb_with_active set_sess pb_sess]. intros c y. rewrite mget_del. destruct (eq_dec c cid); [discriminate|]. intros G1; apply authed_app; eauto. }
  1: { splits E; cbn; rewrite ?app_nil_r; auto. eauto. }
  1: { cbn [pb_decr pb_with_active set_sess pb_sess]. intros c y. rewrite mget_del. destruct (eq_dec c cid); [discriminate|]. intros G1; apply authed_app; eauto. }
  1: { splits E; cbn; rewrite ?app_nil_r; auto. eauto. }
  1: { cbn [pb_decr pb_with_active set_sess pb_sess]. intros c y. rewrite mget_del. destruct (eq_dec c cid); [discriminate|]. intros G1; apply authed_app; eauto. }
  1: { splits E; cbn; auto. - eauto 8. - right. exists input, id. apply in_or_app. right. right. now left. }
  1: { cbn [pb_open fst pb_sess]. intros c y. rewrite mget_set. destruct (eq_dec c cid) as [->|]; [|intros G1; apply authed_app; eauto].
       intros _. right. exists input, id. apply in_or_app. right. right. now left. }
  all: try (splits E; exact Logic.I).
  - splits E. left. exact Au.
  - cbn [pb_open fst pb_sess]. intros c y. rewrite mget_set. destruct (eq_dec c cid) as [->|]; [|intros G1; apply authed_app; eauto]. intros _. left. exact Au.
Qed.

(** ** Handshake replies *)
Definition reps (L : list qout) : Prop :=
  forall before c w after, L = before ++ QAuthReply c w :: after ->
    (exists input id more, after = [QAuthed c input id; QOpen c] ++ more /\ w = [x01; x01]) \/
    (exists more, after = QGone c :: more /\ (w = [] \/ w = [x01; x00])).
Lemma reps_prim L s o s' : reps L -> prim s o s' -> reps (L ++ o).
Proof using.
  intros H P b c w a E. destruct (split_app_list o _ _ _ _ E) as [(a' & -> & E2)|(b' & a' & E2 & -> & ->)].
  - destruct (H _ _ _ _ E2) as [(i & id & more & -> & W)|(more & -> & W)]; [left; exists i, id, (more ++ o); auto|right; exists (more ++ o); auto].
  - clear E H. rename E2 into E. assert (Hin : In (QAuthReply c w) o) by (rewrite E; apply in_or_app; right; now left).
    destruct P as [cid x o d x' G St|cid x G|cid x m G Pm|cid x p G _ _ _ _ _ _|k cid au input ok id w0 rest G Au S|k cid au input ok w0 rest G Au S|
    k cid au input ok w0 rest G Au S|k cid G|k cid G Au|k cid G Au|m M Le|M|m C| |C|]; cbn [pb_open snd app] in E, Hin;
    try (exfalso; clear E; repeat (destruct Hin as [Hin|Hin]; [discriminate|]); destruct Hin; fail).
    + exfalso. clear E. destruct St; cbn [In] in Hin; intuition discriminate.
    + destruct b' as [|z b']; cbn [app] in E.
      * injection E as <- <- <-. left. exists input, id, []. split; [reflexivity|]. apply auth_server_ok in S. apply S.
      * exfalso. injection E as _ E. assert (Hi : In (QAuthReply c w) [QAuthed cid input id; QOpen cid]) by (rewrite E; apply in_or_app; right; now left).
        destruct Hi as [Hi|[Hi|[]]]; discriminate.
    + destruct b' as [|z b']; cbn [app] in E.
      * injection E as <- <- <-. right. exists []. split; [reflexivity|]. eapply auth_server_err; eauto.
      * exfalso. injection E as _ E. assert (Hi : In (QAuthReply c w) [QGone cid]) by (rewrite E; apply in_or_app; right; now left).
        destruct Hi as [Hi|[]]; discriminate.
Qed.

(** ** Bytes *)
Definition txs (L : list qout) (s : pb) : Prop := pb_tx s = fold_right (fun m n => ps_size m + n) 0 (sent_frames L).
Lemma fold_size_app a b : fold_right (fun m n => ps_size m + n) 0 (a ++ b) = fold_right (fun m n => ps_size m + n) 0 a + fold_right (fun m n => ps_size m + n) 0 b.
Proof using. induction a as [|x a IH]; cbn [fold_right app]; [reflexivity|]. rewrite IH. lia. Qed.
Lemma txs_prim L s o s' : txs L s -> prim s o s' -> txs (L ++ o) s'.
Proof using.
  unfold txs. intros H P. rewrite sent_frames_app, fold_size_app, <- H.
  destruct P as [cid x o d x' G St|cid x G|cid x m G Pm|cid x p G _ _ _ _ _ _|k cid au input ok id w rest G Au S|k cid au input ok w rest G Au S|
    k cid au input ok w rest G Au S|k cid G|k cid G Au|k cid G Au|m M Le|M|m C| |C|]; try (cbn; lia).
  destruct St; cbn [set_sess pb_tx sent_frames flat_map fold_right app]; lia.
Qed.

(** Frames written are well-formed: their sizes are those of their topic and payload. *)
Definition wf_frame (m : ps_msg) : Prop := exists now q t b, pub_into_wire now q t b = Some m.
Definition wfs (L : list qout) (s : pb) : Prop :=
  (forall c m ok, In (QHanded c m ok) L -> wf_frame m) /\ (forall c x m, mget c (pb_sess s) = Some x -> sn_pending x = Some m -> wf_frame m).
Lemma wfs_prim L s o s' : wfs L s -> prim s o s' -> wfs (L ++ o) s'.
Proof using.
  intros [H1 H2] P.
  assert (A : forall o', (forall c m ok, ~ In (QHanded c m ok) o') -> forall c m ok, In (QHanded c m ok) (L ++ o') -> wf_frame m).
  { intros o' N c m ok Hi. apply in_app_or in Hi. destruct Hi as [Hi|Hi]; [eauto|exfalso; eapply N; eauto]. }
  assert (Dl : forall c cid x m, mget c (mdel cid (pb_sess s)) = Some x -> sn_pending x = Some m -> wf_frame m).
  { intros c cid x m. rewrite mget_del. destruct (eq_dec c cid); [discriminate|]. apply H2. }
  destruct P as [cid x o d x' G St|cid x G|cid x m G Pm|cid x p G _ _ _ _ _ _|k cid au input ok id w rest G Au S|k cid au input ok w rest G Au S|
    k cid au input ok w rest G Au S|k cid G|k cid G Au|k cid G Au|m M Le|M|m C| |C|];
    try (split; [apply A; intros ? ? ? Hi; cbn in Hi; intuition discriminate|first [exact H2|exact (fun c => Dl c cid)]]; fail).
  - split.
    + intros c m ok Hi. apply in_app_or in Hi. destruct Hi as [Hi|Hi]; [eauto|]. destruct St; (destruct Hi as [Hi|Hi]; [|destruct Hi]) || destruct Hi; try discriminate. injection Hi as <- <- <-. eauto.
    + cbn [set_sess pb_sess]. intros c y m. rewrite mget_set. destruct (eq_dec c cid) as [->|]; [|apply H2].
      intros [= <-]. destruct St as [ | |p now m' fl|p| |m0]; cbn [sn_pending]; try discriminate; [intros Pm; eauto|]. intros [= <-]. unfold wf_frame. eauto.
  - split; [|exact (fun c => Dl c cid)]. intros c m' ok Hi. apply in_app_or in Hi. destruct Hi as [Hi|[Hi|[Hi|[]]]]; [eauto| |discriminate]. injection Hi as <- <- <-. eauto.
  - split; [apply A; intros ? ? ? Hi; cbn in Hi; intuition discriminate|]. cbn [pb_open fst pb_sess]. intros c y m. rewrite mget_set. destruct (eq_dec c cid) as [->|]; [|apply H2].
    intros [= <-]. discriminate.
  - split; [apply A; intros ? ? ? Hi; cbn in Hi; intuition discriminate|]. cbn [pb_open fst pb_sess]. intros c y m. rewrite mget_set. destruct (eq_dec c cid) as [->|]; [|apply H2].
    intros [= <-]. discriminate.
Qed.

Record rinv (L : list qout) (s : pb) : Prop := mkRinv {
  ri_inv1 : inv1 L s; ri_dead : every deadE L; ri_gate : gate L s; ri_reps : reps L; ri_txs : txs L s; ri_wfs : wfs L s }.
Lemma run_rinv min co evs s L : pb_run max buf min auth co pb_init evs = (s, L) -> rinv L s.
Proof.
  apply run_inv.
  - constructor; [apply inv1_init|apply every_nil| |intros b c w a E; destruct b; discriminate|reflexivity|split; [intros ? ? ? []|discriminate]].
    split; [apply every_nil|discriminate].
  - intros L' s1 o s2 [] P. constructor; [eapply inv1_prim|eapply dead_prim|eapply gate_prim|eapply reps_prim|eapply txs_prim|eapply wfs_prim]; eauto.
Qed.
End P.
