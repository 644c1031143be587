(** The joint model of a request and a reply socket: there are fair schedules. *)
From Coq Require Import ZArith Permutation Sorting.Sorted Wf_nat.
From Verif Require Import Model.Base Model.Map Model.Framed Model.WireReqRep Model.WireAuth Model.Compression Model.Backoff Model.Handshake Model.ReqDriver Model.RepDriver Model.Net Model.ReqRepNet
  Spec.Wire Spec.Stream Spec.AuthSpec Spec.CompressSpec Spec.ReqSpec Spec.RepSpec Spec.NetSpec Spec.NetSpec3 Spec.NetSpec4 Spec.NetSpec7
  Proofs.BaseP Proofs.MapP Proofs.FramedP Proofs.FramedP2 Proofs.ReqRepP Proofs.AuthP Proofs.NetP
  Proofs.ReqDriverP Proofs.RepDriverP Proofs.RepDriverP2 Proofs.RepDriverP3 Proofs.RepDriverP5 Proofs.RepDriverP6 Proofs.RepNetP Proofs.ReqRepNetP Proofs.ReqRepNetP2 Proofs.ReqRepNetP3 Proofs.ReqRepNetP4 Proofs.ReqRepNetP5 Proofs.ReqRepNetP6 Proofs.ReqRepNetP7 Proofs.ReqRepNetP8 Proofs.ReqRepNetP9 Proofs.ReqRepNetP10 Proofs.ReqRepNetP11 Proofs.ReqRepNetP12 Proofs.ReqRepNetP15 Proofs.ReqRepNetP16 Proofs.ReqRepNetP17.
Local Open Scope N_scope.

Lemma mod4 n : (n mod 4 = 0 \/ n mod 4 = 1 \/ n mod 4 = 2 \/ n mod 4 = 3)%nat.
Proof. pose proof (Nat.mod_upper_bound n 4 ltac:(discriminate)). lia. Qed.
Lemma mod4_S n : (n mod 4 <> 3 -> S n mod 4 = S (n mod 4))%nat.
Proof. zify. Z.to_euclidean_division_equations. lia. Qed.
Lemma sdel_last (a : N) l : ~ In a l -> sdel a (l ++ [a]) = l.
Proof.
  unfold sdel. intros H. induction l as [|b l IH]; cbn [app remove].
  - destruct (eq_dec a a); [reflexivity|congruence].
  - destruct (eq_dec a b) as [->|]; [destruct H; left; reflexivity|]. f_equal. apply IH. intros X; apply H; right; exact X.
Qed.

Section C.
Variables (o : ropts) (token : option bytes) (cco : option compressor)
          (max : option N) (min : N) (auth : option (bytes -> bool)) (sco : option compressor) (D : decompressors).
Hypothesis TOK : forall t, token = Some t -> blen t < 2 ^ 32.
Hypothesis IC : forall cm, cco = Some cm -> inverse_of D cm.
Hypothesis IS : forall cm, sco = Some cm -> inverse_of D cm.
Notation YI := (YI o token cco max min auth sco D).
Notation run := (y_run o token cco max min auth sco D).
Notation step := (y_step o token cco max min auth sco D).
Notation act := (rp_act max min auth sco D).

Lemma peer_held s a e : rp_held (fst (act s (VPeer a e))) = rp_held s.
Proof using.
  clear. cbn [rp_act]. unfold rp_peer. destruct (mget a (rp_peers s)) as [p|]; [|reflexivity]. destruct (pr_open p); [|reflexivity].
  destruct (peer_iter _ _ _ _ _ _ _ _) as [[[[p' tx] fl] os] [| | | |]]; try reflexivity.
  unfold rp_on_request. destruct (try_decompress _ _ _); [|reflexivity]. destruct (_ || _); reflexivity.
Qed.
Lemma serve_held ev y : rp_held (sy_s (y_serve max min auth sco D ev y)) = rp_held (fst (act (sy_s y) ev)).
Proof using. clear. unfold y_serve. destruct (act (sy_s y) ev). reflexivity. Qed.
Lemma step_peer_held y a e i : rp_held (sy_s (step y (YPeer a e i))) = rp_held (sy_s y).
Proof using.
  clear. cbn [y_step]. unfold y_peer. destruct (mget a (rp_peers (sy_s y))) as [p|]; [|reflexivity].
  destruct (link_of (pr_cid p) y) as [[l k]|]; [|rewrite serve_held; apply peer_held].
  destruct (_ && _); [|rewrite serve_held; apply peer_held]. destruct (pipe_offers _ _); [|reflexivity].
  destruct (rr_poll i (lk_s k)) as [r b]. rewrite serve_held, peer_held. reflexivity.
Qed.
Lemma step_client_held y e f t i : sy_s (step y (YClient e f t i)) = sy_s y.
Proof using.
  clear. cbn [y_step]. unfold y_client. destruct (rd_done _); [reflexivity|]. destruct (y_task _ _ _ _) as [[tk l1]|]; [|reflexivity]. cbv zeta.
  match goal with |- context [match ?x with Some _ => _ | None => y end] => destruct x as [[nx l2]|] end; [|reflexivity].
  destruct (rd_step _ _ _ _ _). reflexivity.
Qed.

Section F.
Variables (f : bytes -> bytes) (evs : list yev) (cid l addr : N).

(** What the application got with request [rid]. *)
Definition asked_with (rid : N) (L : list rout) : bytes :=
  match find (fun x => match x with RReceived q => q_rid q =? rid | _ => false end) L with Some (RReceived q) => q_msg q | _ => [] end.
Definition turn (y : sys) (n : nat) : yev :=
  match (n mod 4)%nat, mget l (sy_links y) with
  | 0%nat, Some k => YClient (env0 0) false [] (now_io (lk_c k))
  | 1%nat, Some k => YPeer addr penv0 (now_io (lk_s k))
  | 3%nat, _ => match rp_held (sy_s y) with [] => YRecv | h => let rid := last h 0 in YRespond rid (f (asked_with rid (sy_slog y))) end
  | _, _ => YRecv
  end.
Fixpoint state (n : nat) : sys := match n with O => run evs | S n => step (state n) (turn (state n) n) end.
Definition robin (n : nat) : yev := turn (state n) n.
Notation at_ n := (run (then_follow evs robin n)).
Lemma state_at n : at_ n = state n.
Proof using. clear TOK IC IS. induction n as [|n IH]; [unfold then_follow; cbn [seq map]; rewrite app_nil_r; reflexivity|]. rewrite at_S, IH. reflexivity. Qed.
Lemma robin_at n : robin n = turn (at_ n) n.
Proof using. clear TOK IC IS. rewrite state_at. reflexivity. Qed.

Hypothesis RQ : requests_fit cco evs.
Hypothesis RO : replies_fit sco (sy_slog (run evs)).
Hypothesis RF : forall q, reply_fits sco (f q).
Hypothesis START : exists p k, conn_at (run evs) cid l addr p k.
Hypothesis LOAD : (load l (run evs) <= 1024)%nat.
Notation good_at := (good_at o token cco max min auth sco D f evs cid l robin addr).

Lemma asked_with_ok n rid : In rid (rp_held (sy_s (at_ n))) -> exists src, In (RReceived (mkReq src rid (asked_with rid (sy_slog (at_ n))))) (sy_slog (at_ n)).
Proof using TOK.
  clear - TOK. intros H. pose proof (y_inv o token cco max min auth sco D TOK (then_follow evs robin n)) as (_ & _ & (S1 & _)).
  destruct (run_gots max min auth sco D _ _ _ S1) as (_ & _ & Gh & _). destruct (Gh _ H) as (q & Hq & Er). unfold asked_with.
  destruct (find _ (sy_slog (at_ n))) as [x|] eqn:F.
  - apply find_some in F. destruct F as [Hx B]. destruct x; try discriminate. apply N.eqb_eq in B. destruct q0 as [a r z]. cbn in B. subst r. exists a. exact Hx.
  - exfalso. apply (find_none _ _ F) in Hq. rewrite Er, N.eqb_refl in Hq. discriminate.
Qed.
Lemma robin_job n : good_at n -> does_job f cid (at_ n) (robin n).
Proof using TOK.
  clear - TOK. intros G. destruct (ga_conn _ _ _ _ _ _ _ _ _ _ _ _ _ _ _ G) as (p & k & (_ & _ & _ & _ & _ & H6 & H7 & H8 & H9 & _)).
  rewrite robin_at. unfold turn. rewrite H9. destruct (mod4 n) as [-> | [-> | [-> | ->]]].
  - cbn. repeat (split; [reflexivity|]). apply now_data.
  - cbn. split; [reflexivity|]. split; [apply now_data|]. eauto.
  - exact I.
  - destruct (rp_held (sy_s (at_ n))) as [|h t] eqn:Hd; [exact I|]. destruct (asked_with_ok n (last (h :: t) 0)) as (src & X).
    + rewrite Hd. rewrite (app_removelast_last (l := h :: t) 0) at 2 by discriminate. apply in_or_app; right; left; reflexivity.
    + cbn [does_job]. eauto.
Qed.
Lemma robin_good n : good_at n.
Proof using TOK IC IS RQ RO RF START LOAD.
  induction n as [|n IH]; [apply good_0; assumption|]. apply good_S; try assumption. apply robin_job, IH.
Qed.
Lemma held_turn n : (n mod 4 <> 3)%nat -> exists a, rp_held (sy_s (at_ (S n))) = a ++ rp_held (sy_s (at_ n)).
Proof using TOK IC IS RQ RO RF START LOAD.
  intros Hn. pose proof (robin_good n) as G. destruct (ga_conn _ _ _ _ _ _ _ _ _ _ _ _ _ _ _ G) as (p & k & (_ & _ & _ & _ & _ & H6 & H7 & H8 & H9 & _)).
  rewrite at_S, robin_at. unfold turn. rewrite H9. destruct (mod4 n) as [-> | [-> | [-> | E]]]; [| | |congruence].
  - rewrite step_client_held. exists []; reflexivity.
  - rewrite step_peer_held. exists []; reflexivity.
  - cbn [y_step]. rewrite serve_held. cbn [rp_act]. destruct (rp_chan (sy_s (at_ n))) as [|q r]; [exists []; reflexivity|exists [q_rid q]; reflexivity].
Qed.
Lemma held_until d : forall n, ((n + d) mod 4 = 3)%nat -> (d + n mod 4 = 3)%nat -> exists a, rp_held (sy_s (at_ (n + d))) = a ++ rp_held (sy_s (at_ n)).
Proof using TOK IC IS RQ RO RF START LOAD.
  induction d as [|d IH]; intros n H1 H2; [exists []; rewrite Nat.add_0_r; reflexivity|]. destruct (held_turn n) as [a1 E1]; [lia|].
  destruct (IH (S n)) as [a2 E2]; [replace (S n + d)%nat with (n + S d)%nat by lia; exact H1|rewrite mod4_S by lia; lia|].
  exists (a2 ++ a1). replace (n + S d)%nat with (S n + d)%nat by lia. rewrite E2, E1, app_assoc. reflexivity.
Qed.
Lemma responds j : forall n a rid b, length b = j -> rp_held (sy_s (at_ n)) = a ++ rid :: b -> exists m x, (n <= m)%nat /\ robin m = YRespond rid x.
Proof using TOK IC IS RQ RO RF START LOAD.
  induction j as [|j IH]; intros n a rid b Lb E.
  all: pose proof (Nat.mod_upper_bound n 4 ltac:(discriminate)) as Mb; pose (d := (3 - n mod 4)%nat); assert (E3 : ((n + d) mod 4 = 3)%nat) by (unfold d; clear; zify; Z.to_euclidean_division_equations; lia).
  all: destruct (held_until d n E3 ltac:(unfold d; lia)) as [a' E']; rewrite E, app_assoc in E'.
  - destruct b; [|discriminate]. exists (n + d)%nat. eexists. split; [lia|]. rewrite robin_at. unfold turn. rewrite E3, E'.
    assert (La : last ((a' ++ a) ++ [rid]) 0 = rid) by apply last_last. destruct ((a' ++ a) ++ [rid]) as [|h t] eqn:Eh; [destruct (a' ++ a); discriminate|]. cbv zeta. rewrite La. reflexivity.
  - destruct (exists_last (l := b)) as (b' & z & ->); [destruct b; discriminate|]. rewrite app_length in Lb. cbn [length] in Lb.
    destruct (IH (S (n + d)) (a' ++ a) rid b') as (m & x & Le & Em); [lia| |exists m, x; split; [lia|exact Em]].
    rewrite at_S, robin_at. unfold turn. rewrite E3, E'. replace ((a' ++ a) ++ rid :: b' ++ [z]) with (((a' ++ a) ++ rid :: b') ++ [z]) in * by (rewrite <- app_assoc; reflexivity).
    set (h := (a' ++ a) ++ rid :: b') in *.
    assert (Nz : ~ In z h).
    { pose proof (y_inv o token cco max min auth sco D TOK (then_follow evs robin (n + d))) as (_ & _ & (S1 & _)). pose proof (run_inv2 max min auth sco D _ _ _ S1) as (_ & _ & (_ & _ & A3 & _) & _).
      rewrite E', <- app_assoc in A3. intros X. apply in_split in X. destruct X as (h1 & h2 & Eh). rewrite Eh, <- app_assoc in A3. cbn [app] in A3. apply NoDup_remove_2 in A3. apply A3. apply in_or_app; right. apply in_or_app; right. left; reflexivity. }
    assert (La : last (h ++ [z]) 0 = z) by apply last_last. destruct (h ++ [z]) as [|h0 t0] eqn:Eh; [destruct h; discriminate|]. cbv zeta. rewrite La.
    cbn [y_step]. rewrite serve_held. cbn [rp_act]. rewrite E', <- Eh. assert (M : smem z (h ++ [z]) = true) by (apply smem_true; apply in_or_app; right; left; reflexivity). rewrite M.
    destruct (os_receiver _ z); cbn [fst rp_held rp_set_app]; rewrite sdel_last by exact Nz; reflexivity.
Qed.
Lemma robin_fair : fair f cid l (fun n => at_ n) robin.
Proof using TOK IC IS RQ RO RF START LOAD.
  assert (M : forall n j, (j < 4)%nat -> ((4 * n + j) mod 4 = j)%nat) by (clear; intros; zify; Z.to_euclidean_division_equations; lia).
  assert (Dl : forall k : rlink, delivers (now_io (lk_c k)) (en_in (lk_c k)) /\ delivers (now_io (lk_s k)) (en_in (lk_s k))).
  { intros k. split; (split; [apply now_offered|]; unfold now_io; match goal with |- context [pp_todo ?x] => destruct (pp_todo x) end; [reflexivity|discriminate]). }
  split; [intros n; apply robin_job, robin_good|]. split; [|split; [|split]].
  - intros n. exists (4 * n + 0)%nat. split; [lia|]. destruct (ga_conn _ _ _ _ _ _ _ _ _ _ _ _ _ _ _ (robin_good (4 * n + 0))) as (p & k & (_ & _ & _ & _ & _ & _ & _ & _ & H9 & _)).
    rewrite robin_at. unfold turn. rewrite M, H9 by lia. cbn [client_turn env0 e_ready e_recv]. split; [reflexivity|]. split; [reflexivity|]. exists k. split; [exact H9|apply Dl].
  - intros n. exists (4 * n + 1)%nat. split; [lia|]. destruct (ga_conn _ _ _ _ _ _ _ _ _ _ _ _ _ _ _ (robin_good (4 * n + 1))) as (p & k & (_ & _ & _ & _ & _ & _ & _ & _ & H9 & _)).
    rewrite robin_at. unfold turn. rewrite M, H9 by lia. cbn [server_turn penv0 p_ready p_pref]. split; [reflexivity|]. split; [discriminate|]. exists k. split; [exact H9|apply Dl].
  - intros n. exists (4 * n + 2)%nat. split; [lia|]. rewrite robin_at. unfold turn. rewrite M by lia. reflexivity.
  - intros n rid H. apply in_split in H. destruct H as (a & b & E). eapply responds; eauto.
Qed.
End F.
End C.
