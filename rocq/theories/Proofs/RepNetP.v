(** Reply socket: which connection a step is about (for Model/ReqRepNet.v). *)
From Coq Require Import ZArith Permutation.
From Verif Require Import Model.Base Model.Map Model.Framed Model.WireReqRep Model.WireAuth Model.Compression Model.Handshake Model.ReqDriver Model.RepDriver
  Spec.RepSpec Proofs.BaseP Proofs.MapP Proofs.RepDriverP Proofs.RepDriverP2.
Local Open Scope N_scope.

Definition mentions (c : N) (x : rout) : Prop :=
  match x with RHanded c' _ _ | RIncoming c' _ _ _ | RAuthReply c' _ | ROpen c' _ => c' = c | _ => False end.
Definition pend (s : rp) (c : N) : Prop := In c (rp_conns s) \/ In c (map fst (rp_auths s)).
Definition opn (s : rp) (c : N) : Prop := exists a p, mget a (rp_peers s) = Some p /\ pr_open p = true /\ pr_cid p = c.
Definition subject (s : rp) (ev : rp_event) : option N :=
  match ev with
  | VPeer a _ => match mget a (rp_peers s) with Some p => if pr_open p then Some (pr_cid p) else None | None => None end
  | VAuth k _ _ => option_map fst (nth_error (rp_auths s) k)
  | VConn k _ => nth_error (rp_conns s) k
  | _ => None
  end.

Lemma in_cut {A} (k : nat) (l : list A) x : In x (firstn k l ++ skipn (S k) l) -> In x l.
Proof.
  intros H. apply in_app_or in H. destruct H as [H|H].
  - rewrite <- (firstn_skipn k l). apply in_or_app; left; exact H.
  - rewrite <- (firstn_skipn (S k) l). apply in_or_app; right; exact H.
Qed.
Lemma nth_cut {A} (l : list A) : forall (k : nat) x, nth_error l k = Some x -> Permutation l (x :: firstn k l ++ skipn (S k) l).
Proof.
  induction l as [|y l IH]; intros [|k] x H; try discriminate; cbn in *.
  - inversion H; subst. reflexivity.
  - rewrite (IH k x H) at 1. apply perm_swap.
Qed.

Section A.
Variables (max : option N) (min : N) (auth : option (bytes -> bool)) (co : option compressor) (D : decompressors).
Notation act := (rp_act max min auth co D).

Lemma peer_iter_cid e os rid p tx failed p' tx' failed' o r : peer_iter min co e os rid p tx failed = (p', tx', failed', o, r) ->
  pr_cid p' = pr_cid p /\ pr_open p' = pr_open p /\ (forall c x, In x o -> mentions c x -> c = pr_cid p).
Proof using.
  unfold peer_iter. set (q := if pr_flush p && p_flush_ok e then _ else p).
  assert (Q : pr_cid q = pr_cid p /\ pr_open q = pr_open p) by (unfold q; destruct (_ && _); auto). clearbody q. destruct Q as [Q1 Q2]. rewrite <- Q1, <- Q2.
  assert (No : forall c x, In x ([] : list rout) -> mentions c x -> c = pr_cid q) by (intros ? ? []).
  destruct (if p_ready e then pr_egress q else []) as [|m rest].
  - destruct (pick (p_pref e) os (pr_pending q)) as [[r0 id]|].
    + destruct (mget r0 os) as [[|x|]|]; [|destruct (rep_outgoing min co id x)|..]; try destruct (p_next e); intros H; inversion H; subst; cbn;
        (split; [reflexivity|]; split; [reflexivity|]); try exact No; intros c y [<-|[]]; cbn; tauto.
    + destruct (p_next e); intros H; inversion H; subst; cbn; auto.
  - destruct (p_send e); intros H; inversion H; subst; cbn; (split; [reflexivity|]; split; [reflexivity|]); intros c y [<-|[]]; cbn; auto.
Qed.

Lemma insert_mentions s cid addr c x : In x (snd (rp_insert s cid addr)) -> mentions c x -> c = cid.
Proof using. intros H M. apply insert_log in H. destruct H as [->|(p & _ & _ & ->)]; cbn in M; [symmetry; exact M|contradiction]. Qed.

Lemma on_request_mentions s addr cid m c x : In x (snd (rp_on_request D s addr cid m)) -> mentions c x -> c = cid.
Proof using.
  unfold rp_on_request. destruct (try_decompress D _ _); [destruct (rp_dropped s || _)|]; cbn [snd]; intros [<-|[<-|[]]]; cbn; auto; contradiction.
Qed.

Lemma act_mentions s ev s' o c x : act s ev = (s', o) -> In x o -> mentions c x -> subject s ev = Some c.
Proof using.
  destruct ev as [a e|k i b|k r| | |rid y|rid|]; cbn [rp_act subject].
  - unfold rp_peer. destruct (mget a (rp_peers s)) as [p|]; [|intros H; inversion H; subst; intros []].
    destruct (pr_open p); [|intros H; inversion H; subst; intros []].
    destruct (peer_iter min co e (rp_os s) (rp_next_rid s) p (rp_tx s) (rp_failed s)) as [[[[p' tx] fl] o1] r] eqn:P.
    apply peer_iter_cid in P. destruct P as (_ & _ & P).
    destruct r as [|m| | |]; try (intros H Hx M; inversion H; subst; rewrite (P c x Hx M); reflexivity).
    + set (s1 := mkRp _ _ _ _ _ _ _ _ _ _ _ _ _). destruct (rp_on_request D s1 a (pr_cid p) m) as [s2 o2] eqn:Q. intros H Hx M; inversion H; subst.
      apply in_app_or in Hx. destruct Hx as [Hx|Hx]; [rewrite (P c x Hx M); reflexivity|].
      rewrite (on_request_mentions s1 a (pr_cid p) m c x); [reflexivity|rewrite Q; exact Hx|exact M].
    + intros H Hx M; inversion H; subst. apply in_app_or in Hx. destruct Hx as [Hx|[<-|[]]]; [rewrite (P c x Hx M); reflexivity|contradiction].
  - unfold rp_auth. destruct (nth_error (rp_auths s) k) as [[cid addr]|]; [|intros H; inversion H; subst; intros []].
    destruct auth as [a|]; [|intros H; inversion H; subst; intros []]. cbn [option_map fst].
    set (s1 := mkRp _ _ _ _ _ _ _ _ _ _ _ _ _). clearbody s1.
    destruct (auth_server a b i) as [[[id| | |] w] rest].
    + destruct (rp_insert s1 cid addr) as [s2 o2] eqn:I. intros H Hx M; inversion H; subst. cbn [app] in Hx. destruct Hx as [<-|[<-|Hx]]; [cbn in M; congruence|contradiction|].
      f_equal. symmetry. eapply insert_mentions; [|exact M]. rewrite I. exact Hx.
    + intros H Hx M; inversion H; subst. destruct Hx as [<-|[<-|[]]]; [cbn in M; congruence|contradiction].
    + intros H Hx M; inversion H; subst. destruct Hx as [<-|[]]; contradiction.
    + intros H Hx M; inversion H; subst. destruct Hx.
  - unfold rp_conn. destruct (nth_error (rp_conns s) k) as [cid|]; [|intros H; inversion H; subst; intros []].
    set (s1 := mkRp _ _ _ _ _ _ _ _ _ _ _ _ _). clearbody s1.
    destruct r as [[addr|]|].
    + destruct auth as [a|]; [intros H; inversion H; subst; intros []|].
      destruct (rp_insert s1 cid addr) as [s2 o2] eqn:I. intros H Hx M; inversion H; subst.
      f_equal. symmetry. eapply insert_mentions; [|exact M]. rewrite I. exact Hx.
    + intros H Hx M; inversion H; subst. destruct Hx as [<-|[]]; contradiction.
    + intros H Hx M; inversion H; subst. destruct Hx as [<-|[]]; contradiction.
  - unfold rp_accept. destruct (match max with Some m => _ | None => _ end); intros H Hx M; inversion H; subst; destruct Hx as [<-|[]]; contradiction.
  - destruct (rp_chan s); intros H Hx M; inversion H; subst; [destruct Hx|destruct Hx as [<-|[]]; contradiction].
  - destruct (smem rid (rp_held s)); [destruct (os_receiver s rid)|]; intros H Hx M; inversion H; subst; [destruct Hx as [<-|[]]; contradiction..|destruct Hx].
  - destruct (smem rid (rp_held s)); intros H Hx M; inversion H; subst; [destruct Hx as [<-|[]]; contradiction|destruct Hx].
  - intros H Hx M; inversion H; subst. destruct Hx as [<-|Hx]; [contradiction|]. apply in_map_iff in Hx. destruct Hx as (q & <- & _). contradiction.
Qed.

Lemma peers_upd_opn s s' a p p' c : rp_peers s' = mset a p' (rp_peers s) -> mget a (rp_peers s) = Some p -> pr_open p = true -> pr_cid p' = pr_cid p -> opn s' c -> opn s c.
Proof using.
  intros E G O C (b & q & Gq & Oq & Cq). rewrite E, mget_set in Gq. destruct (eq_dec b a) as [->|Ne].
  - inversion Gq; subst q. exists a, p. rewrite <- C. auto.
  - exists b, q. auto.
Qed.
Lemma insert_opn s cid addr c : opn (fst (rp_insert s cid addr)) c -> opn s c \/ c = cid.
Proof using.
  intros (b & q & Gq & Oq & Cq). cbn [rp_insert fst rp_with_peers rp_peers] in Gq. rewrite mget_set in Gq. destruct (eq_dec b addr) as [->|Ne].
  - inversion Gq; subst. right; reflexivity.
  - left. exists b, q. auto.
Qed.
Lemma on_request_peers s addr cid m : rp_peers (fst (rp_on_request D s addr cid m)) = rp_peers s /\ rp_conns (fst (rp_on_request D s addr cid m)) = rp_conns s /\
  rp_auths (fst (rp_on_request D s addr cid m)) = rp_auths s /\ rp_next_cid (fst (rp_on_request D s addr cid m)) = rp_next_cid s.
Proof using. unfold rp_on_request. destruct (try_decompress D _ _); [destruct (rp_dropped s || _)|]; cbn; auto. Qed.

(** What a step does to the sets of pending and served connections. *)
Lemma act_conns s ev s' o : act s ev = (s', o) ->
  (forall c, pend s' c -> pend s c \/ (ev = VAccept /\ c = rp_next_cid s)) /\
  (forall c, opn s' c -> opn s c \/ (subject s ev = Some c /\ pend s c)) /\
  (rp_next_cid s' = rp_next_cid s \/ (ev = VAccept /\ rp_next_cid s' = rp_next_cid s + 1)).
Proof using.
  destruct ev as [a e|k i b|k r| | |rid y|rid|]; cbn [rp_act subject].
  - unfold rp_peer. destruct (mget a (rp_peers s)) as [p|] eqn:G; [|intros H; inversion H; subst; auto].
    destruct (pr_open p) eqn:O.
    2: { intros H; inversion H; subst. split; [intros c Hc; left; exact Hc|]. split; [|left; reflexivity]. intros c (b & q & Gq & Oq & Cq). left. cbn [rp_with_peers rp_peers] in Gq.
         rewrite mget_del in Gq. destruct (eq_dec b a); [discriminate|]. exists b, q; auto. }
    destruct (peer_iter min co e (rp_os s) (rp_next_rid s) p (rp_tx s) (rp_failed s)) as [[[[p' tx] fl] o1] r] eqn:P.
    apply peer_iter_cid in P. destruct P as (P1 & P2 & _).
    assert (K : forall s2 q, rp_peers s2 = mset a q (rp_peers s) -> pr_cid q = pr_cid p -> rp_conns s2 = rp_conns s -> rp_auths s2 = rp_auths s -> rp_next_cid s2 = rp_next_cid s ->
       (forall c, pend s2 c -> pend s c \/ (VPeer a e = VAccept /\ c = rp_next_cid s)) /\
       (forall c, opn s2 c -> opn s c \/ (Some (pr_cid p) = Some c /\ pend s c)) /\ (rp_next_cid s2 = rp_next_cid s \/ (VPeer a e = VAccept /\ rp_next_cid s2 = rp_next_cid s + 1))).
    { intros s2 q E1 E2 E3 E4 E5. split; [intros c Hc; left; unfold pend in *; rewrite <- E3, <- E4; exact Hc|]. split; [|left; exact E5].
      intros c Hc. left. eapply peers_upd_opn; eauto. }
    destruct r as [|m| | |].
    + intros H; inversion H; subst. eapply K; try reflexivity. exact P1.
    + set (s1 := mkRp _ _ _ _ _ _ _ _ _ _ _ _ _). destruct (rp_on_request D s1 a (pr_cid p) m) as [s2 o2] eqn:Q. intros H; inversion H; subst.
      pose proof (on_request_peers s1 a (pr_cid p) m) as (X1 & X2 & X3 & X4). rewrite Q in X1, X2, X3, X4. cbn [fst] in *. eapply K; [rewrite X1; reflexivity|exact P1|rewrite X2; reflexivity|rewrite X3; reflexivity|rewrite X4; reflexivity].
    + intros H; inversion H; subst. eapply K; try reflexivity. exact P1.
    + intros H; inversion H; subst. eapply K; try reflexivity. exact P1.
    + intros H; inversion H; subst. eapply K; try reflexivity. exact P1.
  - unfold rp_auth. destruct (nth_error (rp_auths s) k) as [[cid addr]|] eqn:Nt; [|intros H; inversion H; subst; auto].
    destruct auth as [a|]; [|intros H; inversion H; subst; auto]. cbn [option_map fst].
    set (s1 := mkRp _ _ _ _ _ _ _ _ _ _ _ _ _).
    assert (P0 : pend s cid) by (right; apply nth_error_In in Nt; apply in_map_iff; exists (cid, addr); auto).
    assert (P1 : forall c, pend s1 c -> pend s c).
    { intros c [Hc|Hc]; [left; exact Hc|right]. apply in_map_iff in Hc. destruct Hc as (x & <- & Hx). apply in_map. cbn [s1 rp_auths] in Hx. apply in_cut in Hx. exact Hx. }
    destruct (auth_server a b i) as [[[id| | |] w] rest].
    + destruct (rp_insert s1 cid addr) as [s2 o2] eqn:I. intros H; inversion H; subst.
      assert (E : s' = fst (rp_insert s1 cid addr)) by (rewrite I; reflexivity). subst s'. cbn [rp_insert fst]. split; [intros c Hc; left; apply P1; exact Hc|]. split; [|left; reflexivity].
      intros c Hc. apply (insert_opn s1 cid addr c) in Hc. destruct Hc as [Hc| ->]; [left; exact Hc|right; auto].
    + intros H; inversion H; subst. split; [intros c Hc; left; apply P1; exact Hc|]. split; [|left; reflexivity]. intros c Hc; left; exact Hc.
    + intros H; inversion H; subst. split; [intros c Hc; left; apply P1; exact Hc|]. split; [|left; reflexivity]. intros c Hc; left; exact Hc.
    + intros H; inversion H; subst. auto.
  - unfold rp_conn. destruct (nth_error (rp_conns s) k) as [cid|] eqn:Nt; [|intros H; inversion H; subst; auto].
    set (s1 := mkRp _ _ _ _ _ _ _ _ _ _ _ _ _).
    assert (P0 : pend s cid) by (left; apply nth_error_In in Nt; exact Nt).
    assert (P1 : forall c, pend s1 c -> pend s c).
    { intros c [Hc|Hc]; [left|right; exact Hc]. cbn [s1 rp_conns] in Hc. apply in_cut in Hc. exact Hc. }
    destruct r as [[addr|]|].
    + destruct auth as [a|].
      * intros H; inversion H; subst. split; [|split; [intros c Hc; left; exact Hc|left; reflexivity]]. intros c [Hc|Hc]; left; [apply P1; left; exact Hc|].
        cbn [rp_auths s1] in Hc. rewrite map_app in Hc. apply in_app_or in Hc. destruct Hc as [Hc|[<-|[]]]; [right; exact Hc|exact P0].
      * destruct (rp_insert s1 cid addr) as [s2 o2] eqn:I. intros H; inversion H; subst.
        assert (E : s' = fst (rp_insert s1 cid addr)) by (rewrite I; reflexivity). subst s'. split; [intros c Hc; left; apply P1; exact Hc|]. split; [|left; reflexivity].
        intros c Hc. apply (insert_opn s1 cid addr c) in Hc. destruct Hc as [Hc| ->]; [left; exact Hc|right; auto].
    + intros H; inversion H; subst. split; [intros c Hc; left; apply P1; exact Hc|]. split; [|left; reflexivity]. intros c Hc; left; exact Hc.
    + intros H; inversion H; subst. split; [intros c Hc; left; apply P1; exact Hc|]. split; [|left; reflexivity]. intros c Hc; left; exact Hc.
  - unfold rp_accept. destruct (match max with Some m => _ | None => _ end); intros H; inversion H; subst; [auto|].
    split; [|split; [intros c Hc; left; exact Hc|right; auto]]. intros c [Hc|Hc]; [|left; right; exact Hc]. cbn in Hc. apply in_app_or in Hc. destruct Hc as [Hc|[<-|[]]]; [left; left; exact Hc|right; auto].
  - destruct (rp_chan s); intros H; inversion H; subst; (split; [intros c Hc; left; exact Hc|split; [intros c Hc; left; exact Hc|left; reflexivity]]).
  - destruct (smem rid (rp_held s)); [destruct (os_receiver s rid)|]; intros H; inversion H; subst; (split; [intros c Hc; left; exact Hc|split; [intros c Hc; left; exact Hc|left; reflexivity]]).
  - destruct (smem rid (rp_held s)); intros H; inversion H; subst; (split; [intros c Hc; left; exact Hc|split; [intros c Hc; left; exact Hc|left; reflexivity]]).
  - intros H; inversion H; subst; (split; [intros c Hc; left; exact Hc|split; [intros c Hc; left; exact Hc|left; reflexivity]]).
Qed.
End A.
