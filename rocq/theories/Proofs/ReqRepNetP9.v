(** The joint model of a request and a reply socket: reading everything that is on its way. *)
From Coq Require Import ZArith Permutation Sorting.Sorted.
From Verif Require Import Model.Base Model.Map Model.Framed Model.WireReqRep Model.WireAuth Model.Compression Model.Backoff Model.Handshake Model.ReqDriver Model.RepDriver Model.Net Model.ReqRepNet
  Spec.Wire Spec.Stream Spec.AuthSpec Spec.CompressSpec Spec.ReqSpec Spec.RepSpec Spec.NetSpec Spec.NetSpec3
  Proofs.BaseP Proofs.MapP Proofs.FramedP Proofs.FramedP2 Proofs.ReqRepP Proofs.AuthP Proofs.NetP
  Proofs.ReqDriverP Proofs.RepDriverP Proofs.RepDriverP2 Proofs.RepDriverP5 Proofs.RepDriverP6 Proofs.RepNetP Proofs.ReqRepNetP Proofs.ReqRepNetP2 Proofs.ReqRepNetP3 Proofs.ReqRepNetP4 Proofs.ReqRepNetP5 Proofs.ReqRepNetP6 Proofs.ReqRepNetP7 Proofs.ReqRepNetP8.
From Verif Require Proofs.T_Req Proofs.T_Rep Proofs.T_Compress.
Local Open Scope N_scope.

Definition now_io (b : rend) : list io := match pp_todo (en_in b) with [] => [] | t => [IoData t] end.
Lemma now_offered b : pipe_offers (now_io b) (en_in b) = true.
Proof. unfold now_io, pipe_offers. apply prefixb_ok. exists []. destruct (pp_todo (en_in b)) eqn:E; [reflexivity|]. unfold io_data. cbn [map concat]. rewrite !app_nil_r. reflexivity. Qed.
Lemma now_received b : received (now_io b) = pp_todo (en_in b).
Proof. unfold now_io. destruct (pp_todo (en_in b)); [reflexivity|]. unfold received; cbn [map concat]. rewrite app_nil_r. reflexivity. Qed.

Lemma held_decode s x : rr_ok s -> rr_decode RRHeader (rr_held s ++ x) = rr_decode s x.
Proof.
  destruct s as [|h]; [reflexivity|]. intros [H1 H2]. cbn [rr_held rr_decode app]. rewrite <- app_assoc. rewrite rr_header_full by apply put_be_length.
  rewrite (get_put 4 (rrh_id h)), (get_put 4 (rrh_size h)) by assumption. destruct h; reflexivity.
Qed.
Lemma pending_unreadable input : forall f f' rest, framed_poll rr_decode RRIo f input = (PPending, f', rest) -> fr_readable f' = false.
Proof.
  assert (Fr : forall f f', framed_front rr_decode RRIo f = (None, f') -> fr_readable f' = false).
  { intros f f'. unfold framed_front. destruct (fr_errored f); [discriminate|]. destruct (fr_readable f) eqn:R; [|intros H; inversion H; subst; exact R].
    destruct (fr_eof f); destruct (rr_decode (fr_codec f) (fr_buf f)) as [s [|]|m s b|e s b|]; intros H; inversion H; subst; reflexivity. }
  assert (Fp : forall f f', framed_front rr_decode RRIo f <> (Some PPending, f')).
  { intros f f'. unfold framed_front. destruct (fr_errored f); [discriminate|]. destruct (fr_readable f) eqn:R; [|discriminate].
    destruct (fr_eof f); destruct (rr_decode (fr_codec f) (fr_buf f)) as [s [|]|m s b|e s b|]; discriminate. }
  induction input as [|i input IH]; intros f f' rest; rewrite framed_poll_unfold; destruct (framed_front rr_decode RRIo f) as [[r|] g] eqn:E; intros H.
  - inversion H; subst. destruct (Fp _ _ E).
  - inversion H; subst. eapply Fr; eauto.
  - inversion H; subst. destruct (Fp _ _ E).
  - destruct i as [[|x c]| |].
    + destruct (fr_eof g); [discriminate|]. eapply IH; eauto.
    + eapply IH; eauto.
    + inversion H; subst. eapply Fr; eauto.
    + discriminate.
Qed.

Lemma poll_now a b : rdir a b -> Forall rr_wf (en_sent a) -> en_hs b = en_greet a -> good (en_fr b) ->
  exists r b', rr_poll (now_io b) b = (r, b') /\ good (en_fr b') /\
    ((r = PPending /\ en_items b = en_sent a /\ en_items b' = en_items b) \/ (exists m rest, r = PItem m /\ en_items b' = en_items b ++ [m] /\ en_sent a = en_items b ++ m :: rest)).
Proof.
  intros R W H G. destruct (dir_items a b R W (or_introl H)) as [rest E]. pose proof R as (D1 & D2 & D3 & D4).
  assert (B : rr_held (fr_codec (en_fr b)) ++ fr_buf (en_fr b) ++ pp_todo (en_in b) = rencs rest).
  { rewrite D3, H, <- !app_assoc in D1. apply app_inv_head in D1. rewrite E, rencs_app in D1. apply app_inv_head in D1. exact D1. }
  assert (Wr : Forall rr_wf rest) by (rewrite E in W; apply Forall_app in W; apply W).
  assert (St : stream rr_decode (fr_codec (en_fr b)) (fr_buf (en_fr b) ++ pp_todo (en_in b)) rest (TMore RRHeader [])).
  { eapply stream_eqv; [apply held_decode; exact D2|]. rewrite B. apply rr_stream_encode. exact Wr. }
  destruct G as (G1 & G2 & G3).
  assert (I0 : Inv rr_decode (fun _ => True) (en_fr b) (now_io b) rest (TMore RRHeader [])).
  { split; [exact I|]. split; [exact G1|]. split; [exact G2|]. split; [|split; [rewrite now_received; exact St|exact G3]].
    unfold now_io. destruct (pp_todo (en_in b)); constructor; [exact I|constructor]. }
  pose proof (poll_inv rr_decode RRIo (fun _ => True) rr_w rr_incremental (now_io b) (en_fr b) rest _ StillOpen I0) as P. cbn [ending_io] in P. rewrite !app_nil_r in P.
  pose proof (now_offered b) as Of.
  destruct (rr_poll (now_io b) b) as [r b'] eqn:Pl. exists r, b'. split; [reflexivity|].
  pose proof (end_poll_good _ _ _ _ (conj G1 (conj G2 G3)) Pl) as Gd.
  destruct (rdir_poll a b _ _ _ R Of Pl) as (_ & R' & It & _).
  unfold rr_poll, end_poll in Pl. destruct (framed_poll rr_decode RRIo (en_fr b) (now_io b)) as [[r0 f] i'] eqn:Fp. inversion Pl; subst r0 b'; clear Pl. cbn [en_items en_fr] in *.
  destruct r as [m|e| | |].
  - destruct P as (ms' & body' & -> & _). split; [exact Gd|]. right. exists m, ms'. auto.
  - exfalso. destruct P as (X & ->). cbn in X. discriminate.
  - exfalso. destruct P as (X & ->). cbn in X. discriminate.
  - split; [exact Gd|]. left. split; [reflexivity|]. split; [|apply app_nil_r]. destruct P as (body' & _ & If & X).
    assert (rest = []); [|subst rest; rewrite E, app_nil_r; reflexivity].
    destruct X as [X|(_ & _ & _ & X & _)]; [|exact X]. assert (body' = []). { destruct body'; [reflexivity|]. exfalso. unfold now_io in X. destruct (pp_todo (en_in b)); cbn in X; lia. } subst body'.
    destruct If as (_ & _ & _ & _ & Sf & Rf). apply pending_unreadable in Fp. specialize (Rf Fp). cbn [received map concat] in Sf. rewrite app_nil_r in Sf. inversion Sf; subst; congruence.
  - contradiction.
Qed.

(** If everything was read, nothing is on its way. *)
Lemma all_items a b : rdir a b -> en_hs b = en_greet a -> en_items b = en_sent a -> end_drained b.
Proof.
  intros (D1 & D2 & D3 & D4) H E. rewrite D3, H, E in D1. rewrite <- !app_assoc in D1. apply app_inv_head in D1. rewrite <- (app_nil_r (rencs (en_sent a))) in D1 at 2. apply app_inv_head in D1.
  apply app_eq_nil in D1. destruct D1 as [Hh D1]. apply app_eq_nil in D1. destruct D1 as [Hb Ht]. split; [exact Ht|]. split; [exact Hb|]. destruct (fr_codec (en_fr b)); [reflexivity|discriminate].
Qed.
Lemma hs_both token auth k : link_ok token auth k -> en_on (lk_c k) = true -> en_on (lk_s k) = true -> en_hs (lk_s k) = en_greet (lk_c k) /\ en_hs (lk_c k) = en_greet (lk_s k).
Proof.
  intros (_ & _ & _ & (b & Gc) & C & _ & _ & S) Oc Os. specialize (C Oc). specialize (S Os). destruct token as [t|], auth as [a|].
  - destruct C as [C _], S as [S _]. auto.
  - destruct C as [_ C], S as [S _]. congruence.
  - destruct S as [_ (a' & t & _ & X & _)]. discriminate.
  - destruct S as [S1 S2]. rewrite C, S1, S2, Gc. split; reflexivity.
Qed.
