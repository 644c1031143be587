(** Publisher socket and subscriber socket: which connection a step is about (for Model/PubSubNet.v). *)
From Coq Require Import ZArith Permutation.
From Verif Require Import Model.Base Model.Map Model.Framed Model.WirePubSub Model.WireAuth Model.Compression Model.Handshake Model.JoinMap Model.Backoff Model.Trie Model.PubDriver Model.SubDriver
  Spec.PubSpec Spec.SubSpec Spec.NetSpec2 Proofs.BaseP Proofs.MapP Proofs.PubDriverP Proofs.PubDriverP2 Proofs.PubDriverP3.
Local Open Scope N_scope.

(** * Publisher *)
Definition mentions (c : N) (x : qout) : Prop :=
  match x with QHanded c' _ _ | QControl c' _ _ | QAuthReply c' _ | QOpen c' => c' = c | _ => False end.
Definition pend (s : pb) (c : N) : Prop := In c (pb_conns s) \/ In c (pb_auths s).
Definition opn (s : pb) (c : N) : Prop := mget c (pb_sess s) <> None.
Definition subject (s : pb) (ev : pb_event) : option N :=
  match ev with
  | WSession c _ => match mget c (pb_sess s) with Some _ => Some c | None => None end
  | WAuth k _ _ => nth_error (pb_auths s) k
  | WConn k _ => nth_error (pb_conns s) k
  | _ => None
  end.
Lemma in_cut {A} (k : nat) (l : list A) x : In x (firstn k l ++ skipn (S k) l) -> In x l.
Proof.
  intros H. apply in_app_or in H. destruct H as [H|H].
  - rewrite <- (firstn_skipn k l). apply in_or_app; left; exact H.
  - rewrite <- (firstn_skipn (S k) l). apply in_or_app; right; exact H.
Qed.
Lemma cut_not_in {A} (l : list A) k x : NoDup l -> nth_error l k = Some x -> ~ In x (firstn k l ++ skipn (S k) l).
Proof. intros Nd H Hin. pose proof (nth_split_perm l k x H) as P. apply (Permutation_NoDup P) in Nd. inversion Nd; contradiction. Qed.

(** Frames given to a connection that took them, and frames received on it. *)
Notation tak_on := taken_on.
Notation ctl_on := controls_on.
Lemma tak_on_app c a b : tak_on c (a ++ b) = tak_on c a ++ tak_on c b. Proof. apply flat_map_app. Qed.
Lemma ctl_on_app c a b : ctl_on c (a ++ b) = ctl_on c a ++ ctl_on c b. Proof. apply flat_map_app. Qed.
Lemma on_none c os : (forall x, In x os -> ~ mentions c x) -> tak_on c os = [] /\ ctl_on c os = [].
Proof.
  induction os as [|x os IH]; intros H; [auto|]. destruct IH as [I1 I2]; [intros y Hy; apply H; right; exact Hy|]. specialize (H x (or_introl eq_refl)).
  cbn [tak_on ctl_on flat_map]. fold (tak_on c os) (ctl_on c os). rewrite I1, I2.
  destruct x as [| | | | |c' m op|c' m [|]| | | | | | | |]; cbn in *; auto; destruct (eq_dec c' c); auto; contradiction.
Qed.
Lemma in_tak c m L : In m (tak_on c L) <-> In (QHanded c m true) L.
Proof.
  unfold tak_on. rewrite in_flat_map. split.
  - intros (x & Hx & H). destruct x as [| | | | | |c' m' [|]| | | | | | | |]; try contradiction. destruct (eq_dec c' c); [|contradiction]. destruct H as [<-|[]]. subst. exact Hx.
  - intros H. eexists. split; [exact H|]. cbn. destruct (eq_dec c c); [left; reflexivity|congruence].
Qed.
Lemma in_ctl c m L : In m (ctl_on c L) <-> exists o, In (QControl c m o) L.
Proof.
  unfold ctl_on. rewrite in_flat_map. split.
  - intros (x & Hx & H). destruct x as [| | | | |c' m' op| | | | | | | | |]; try contradiction. destruct (eq_dec c' c); [|contradiction]. destruct H as [<-|[]]. subst. eauto.
  - intros (o & H). eexists. split; [exact H|]. cbn. destruct (eq_dec c c); [left; reflexivity|congruence].
Qed.

Section A.
Variables (max : option N) (buf min : N) (auth : option (bytes -> bool)) (co : option compressor).
Notation act := (pb_act max buf min auth co).

Lemma pub_snoc s evs ev : pb_run max buf min auth co s (evs ++ [ev]) = let (s1, o1) := pb_run max buf min auth co s evs in let (s2, o2) := act s1 ev in (s2, o1 ++ o2).
Proof using. rewrite PubDriverP.run_app. destruct (pb_run max buf min auth co s evs) as [s1 o1]. cbn [pb_run]. destruct (act s1 ev) as [s2 o2]. rewrite app_nil_r. reflexivity. Qed.

Lemma iter_mentions cid e h c x x' d o r : sn_iter buf cid e h c x = (x', d, o, r) -> forall c' y, In y o -> mentions c' y -> c' = cid.
Proof using.
  unfold sn_iter. cbn [sn_seq sn_pos sn_pending sn_filter sn_flush].
  destruct (s_ready e); [|intros H; inversion H; subst; intros ? ? []].
  destruct (sn_pending x); [destruct (s_send e); intros H; inversion H; subst; intros c' y [<-|[]] M; cbn in M; auto|].
  destruct (bcast_recv _ _ _ _).
  - destruct (nth_error h _); [|intros H; inversion H; subst; intros ? ? []]. destruct (trie_contains _ _); [destruct (pub_into_wire _ _ _ _)|]; intros H; inversion H; subst; intros c' y [<-|[]] M; contradiction.
  - intros H; inversion H; subst; intros c' y [<-|[]] M; contradiction.
  - destruct (s_next e); intros H; inversion H; subst; [|intros ? ? []..]. intros c' y [<-|[]] M; cbn in M; auto.
  - intros H; inversion H; subst; intros ? ? [].
Qed.

Lemma act_mentions s ev s' o c x : act s ev = (s', o) -> In x o -> mentions c x -> subject s ev = Some c.
Proof using.
  destruct ev as [cid e|k i b|k r| |t p|t p|]; cbn [pb_act subject].
  - destruct (pb_session buf cid e s) as [[s1 o1] r1] eqn:E. unfold pb_session in E. destruct (mget cid (pb_sess s)) as [q|]; [|inversion E; subst; intros H; inversion H; subst; intros []].
    destruct (sn_iter buf cid e (pb_hist s) (pb_closed s) q) as [[[q' d] oo] r] eqn:It. pose proof (iter_mentions _ _ _ _ _ _ _ _ _ It c) as K.
    intros H Hx M; inversion H; subst. destruct r; inversion E; subst; try (f_equal; symmetry; eapply K; eassumption); apply in_app_or in Hx; destruct Hx as [Hx|[<-|[]]]; try contradiction; f_equal; symmetry; eapply K; eassumption.
  - destruct (pb_auth auth k i b s) as [[s1 o1] r1] eqn:E. unfold pb_auth in E. destruct (nth_error (pb_auths s) k) as [cid|]; [|inversion E; subst; intros H; inversion H; subst; intros []].
    destruct auth as [a|]; [|inversion E; subst; intros H; inversion H; subst; intros []].
    destruct (auth_server a b i) as [[[id| | |] w] rest]; cbn [pb_open] in E; intros H Hx M; inversion H; subst; inversion E; subst; cbn [app] in Hx.
    + destruct Hx as [<-|[<-|[<-|[]]]]; cbn in M; congruence || contradiction.
    + destruct Hx as [<-|[<-|[]]]; cbn in M; congruence || contradiction.
    + destruct Hx as [<-|[]]; contradiction.
    + destruct Hx.
  - destruct (pb_conn auth k r s) as [[s1 o1] r1] eqn:E. unfold pb_conn in E. destruct (nth_error (pb_conns s) k) as [cid|]; [|inversion E; subst; intros H; inversion H; subst; intros []].
    destruct r as [[|]|]; [destruct auth as [a|]|..]; cbn [pb_open] in E; intros H Hx M; inversion H; subst; inversion E; subst; destruct Hx as [<-|[]] || destruct Hx; cbn in M; congruence || contradiction.
  - unfold pb_accept. destruct (match max with Some m => _ | None => _ end); intros H Hx M; inversion H; subst; destruct Hx as [<-|[]]; contradiction.
  - unfold pb_send. destruct (publish_outgoing min co p); [destruct (pb_closed s)|]; intros H Hx M; inversion H; subst; destruct Hx as [<-|[]] || destruct Hx; contradiction.
  - unfold pb_send. destruct (try_publish_outgoing min co p); [destruct (pb_closed s)|]; intros H Hx M; inversion H; subst; destruct Hx as [<-|[]] || destruct Hx; contradiction.
  - destruct (pb_closed s); intros H Hx M; inversion H; subst; destruct Hx as [<-|[]] || destruct Hx; contradiction.
Qed.

(** What a step does to the sets of pending and served connections. *)
Lemma act_conns s ev s' o : act s ev = (s', o) ->
  (forall c, pend s' c -> pend s c \/ (ev = WAccept /\ c = pb_next_cid s)) /\
  (forall c, opn s' c -> opn s c \/ (subject s ev = Some c /\ pend s c)) /\
  (pb_next_cid s' = pb_next_cid s \/ (ev = WAccept /\ pb_next_cid s' = pb_next_cid s + 1)).
Proof using.
  assert (Same : forall s2, pb_conns s2 = pb_conns s -> pb_auths s2 = pb_auths s -> (forall c, opn s2 c -> opn s c) -> pb_next_cid s2 = pb_next_cid s ->
     (forall c, pend s2 c -> pend s c \/ (ev = WAccept /\ c = pb_next_cid s)) /\
     (forall c, opn s2 c -> opn s c \/ (subject s ev = Some c /\ pend s c)) /\
     (pb_next_cid s2 = pb_next_cid s \/ (ev = WAccept /\ pb_next_cid s2 = pb_next_cid s + 1))).
  { intros s2 E1 E2 E3 E4. split; [intros c Hc; left; unfold pend in *; rewrite <- E1, <- E2; exact Hc|]. split; [intros c Hc; left; apply E3, Hc|left; exact E4]. }
  destruct ev as [cid e|k i b|k r| |t p|t p|]; cbn [pb_act].
  - destruct (pb_session buf cid e s) as [[s1 o1] r1] eqn:E. intros H; inversion H; subst s1 o1; clear H. unfold pb_session in E. destruct (mget cid (pb_sess s)) as [q|] eqn:G; [|inversion E; subst; apply Same; auto].
    destruct (sn_iter buf cid e (pb_hist s) (pb_closed s) q) as [[[q' d] oo] r] eqn:It.
    assert (K : forall x, mget x (mset cid q' (pb_sess s)) <> None -> mget x (pb_sess s) <> None) by (intros x; rewrite mget_set; destruct (eq_dec x cid) as [->|]; [congruence|auto]).
    assert (K2 : forall x, mget x (mdel cid (pb_sess s)) <> None -> mget x (pb_sess s) <> None) by (intros x; rewrite mget_del; destruct (eq_dec x cid) as [->|]; [congruence|auto]).
    destruct r; inversion E; subst; apply Same; try reflexivity; unfold opn; cbn [pb_sess pb_decr pb_with_active]; auto.
  - destruct (pb_auth auth k i b s) as [[s1 o1] r1] eqn:E. intros H; inversion H; subst s1 o1; clear H. unfold pb_auth in E. destruct (nth_error (pb_auths s) k) as [cid|] eqn:Nt; [|inversion E; subst; apply Same; auto].
    destruct auth as [a|]; [|inversion E; subst; apply Same; auto]. cbn [subject]. rewrite Nt.
    assert (P0 : pend s cid) by (right; apply nth_error_In in Nt; exact Nt).
    assert (P1 : forall x, In x (firstn k (pb_auths s) ++ skipn (S k) (pb_auths s)) -> pend s x) by (intros x Hx; right; apply in_cut in Hx; exact Hx).
    destruct (auth_server a b i) as [[[id| | |] w] rest]; cbn [pb_open] in E; inversion E; subst.
    + split; [intros c [Hc|Hc]; left; [left; exact Hc|apply P1; exact Hc]|]. split; [|left; reflexivity].
      intros c Hc. unfold opn in Hc. cbn [pb_sess] in Hc. rewrite mget_set in Hc. destruct (eq_dec c cid) as [->|]; [right; auto|left; exact Hc].
    + split; [intros c [Hc|Hc]; left; [left; exact Hc|apply P1; exact Hc]|]. split; [|left; reflexivity]. intros c Hc; left; exact Hc.
    + split; [intros c [Hc|Hc]; left; [left; exact Hc|apply P1; exact Hc]|]. split; [|left; reflexivity]. intros c Hc; left; exact Hc.
    + split; [auto|]. split; auto.
  - destruct (pb_conn auth k r s) as [[s1 o1] r1] eqn:E. intros H; inversion H; subst s1 o1; clear H. unfold pb_conn in E. destruct (nth_error (pb_conns s) k) as [cid|] eqn:Nt; [|inversion E; subst; apply Same; auto].
    cbn [subject]. rewrite Nt.
    assert (P0 : pend s cid) by (left; apply nth_error_In in Nt; exact Nt).
    assert (P1 : forall x, In x (firstn k (pb_conns s) ++ skipn (S k) (pb_conns s)) -> pend s x) by (intros x Hx; left; apply in_cut in Hx; exact Hx).
    destruct r as [[|]|]; [destruct auth as [a|]|..]; cbn [pb_open] in E; inversion E; subst.
    + split; [|split; [intros c Hc; left; exact Hc|left; reflexivity]]. intros c [Hc|Hc]; left; [apply P1; exact Hc|]. cbn [pb_auths] in Hc. apply in_app_or in Hc. destruct Hc as [Hc|[<-|[]]]; [right; exact Hc|exact P0].
    + split; [intros c [Hc|Hc]; left; [apply P1; exact Hc|right; exact Hc]|]. split; [|left; reflexivity].
      intros c Hc. unfold opn in Hc. cbn [pb_sess] in Hc. rewrite mget_set in Hc. destruct (eq_dec c cid) as [->|]; [right; auto|left; exact Hc].
    + split; [intros c [Hc|Hc]; left; [apply P1; exact Hc|right; exact Hc]|]. split; [|left; reflexivity]. intros c Hc; left; exact Hc.
    + split; [intros c [Hc|Hc]; left; [apply P1; exact Hc|right; exact Hc]|]. split; [|left; reflexivity]. intros c Hc; left; exact Hc.
  - unfold pb_accept. destruct (match max with Some m => _ | None => _ end); intros H; inversion H; subst; [apply Same; auto|].
    split; [|split; [intros c Hc; left; exact Hc|right; auto]]. intros c [Hc|Hc]; [|left; right; exact Hc]. cbn in Hc. apply in_app_or in Hc. destruct Hc as [Hc|[<-|[]]]; [left; left; exact Hc|right; auto].
  - unfold pb_send. destruct (publish_outgoing min co p); [destruct (pb_closed s)|]; intros H; inversion H; subst; apply Same; auto.
  - unfold pb_send. destruct (try_publish_outgoing min co p); [destruct (pb_closed s)|]; intros H; inversion H; subst; apply Same; auto.
  - destruct (pb_closed s); intros H; inversion H; subst; apply Same; auto.
Qed.
End A.
