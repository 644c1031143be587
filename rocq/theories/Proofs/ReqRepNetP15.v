(** The joint model of a request and a reply socket: reading from a connection, in pieces of any size. *)
From Coq Require Import ZArith Permutation Sorting.Sorted.
From Verif Require Import Model.Base Model.Map Model.Framed Model.WireReqRep Model.WireAuth Model.Compression Model.Backoff Model.Handshake Model.ReqDriver Model.RepDriver Model.Net Model.ReqRepNet
  Spec.Wire Spec.Stream Spec.AuthSpec Spec.CompressSpec Spec.ReqSpec Spec.RepSpec Spec.NetSpec Spec.NetSpec3 Spec.NetSpec4
  Proofs.BaseP Proofs.MapP Proofs.FramedP Proofs.FramedP2 Proofs.ReqRepP Proofs.AuthP Proofs.NetP
  Proofs.ReqDriverP Proofs.RepDriverP Proofs.RepDriverP2 Proofs.RepDriverP5 Proofs.RepDriverP6 Proofs.RepNetP Proofs.ReqRepNetP Proofs.ReqRepNetP2 Proofs.ReqRepNetP3 Proofs.ReqRepNetP4 Proofs.ReqRepNetP5 Proofs.ReqRepNetP6 Proofs.ReqRepNetP7 Proofs.ReqRepNetP8 Proofs.ReqRepNetP9.
Local Open Scope N_scope.

Section P.
Context {S M E : Type}.
Variables (decode : S -> bytes -> dres S M E) (io_err : E).
Notation poll := (framed_poll decode io_err).
Lemma poll_more j i : forall f r f' rest, poll f i = (r, f', rest) -> r <> PPending -> poll f (i ++ j) = (r, f', rest ++ j).
Proof.
  induction i as [|x i IH]; intros f r f' rest; rewrite !framed_poll_unfold; destruct (framed_front decode io_err f) as [[y|] g]; intros H Nr; cbn [app] in *.
  - inversion H; subst. destruct j; reflexivity.
  - inversion H; subst. congruence.
  - inversion H; subst. reflexivity.
  - destruct x as [[|b t]| |].
    + destruct (fr_eof g); [inversion H; subst; reflexivity|]. apply IH; assumption.
    + apply IH; assumption.
    + inversion H; subst. congruence.
    + inversion H; subst. reflexivity.
Qed.
Lemma front_not_pending f f' : framed_front decode io_err f <> (Some PPending, f').
Proof.
  unfold framed_front. destruct (fr_errored f); [discriminate|]. destruct (fr_readable f) eqn:R; [|discriminate].
  destruct (fr_eof f); destruct (decode (fr_codec f) (fr_buf f)) as [s [|]|m s b|e s b|]; discriminate.
Qed.
Lemma poll_pending_all i : (forall x, In x i -> exists b t, x = IoData (b :: t)) -> forall f f' rest, poll f i = (PPending, f', rest) -> rest = [].
Proof.
  induction i as [|x i IH]; intros Di f f' rest; rewrite !framed_poll_unfold; destruct (framed_front decode io_err f) as [[y|] g] eqn:F; intros H.
  - inversion H; subst. destruct (front_not_pending _ _ F).
  - inversion H; reflexivity.
  - inversion H; subst. destruct (front_not_pending _ _ F).
  - destruct (Di x (or_introl eq_refl)) as (b & t & ->). eapply IH; [|exact H]. intros z Hz. apply Di. right; exact Hz.
Qed.
End P.

Definition data_io (b : bytes) : list io := match b with [] => [] | t => [IoData t] end.
Lemma data_io_received b : received (data_io b) = b.
Proof. destruct b; [reflexivity|]. unfold received, data_io; cbn [map concat]. rewrite app_nil_r. reflexivity. Qed.
Lemma received_app a b : received (a ++ b) = received a ++ received b.
Proof. unfold received. rewrite map_app, concat_app. reflexivity. Qed.
Lemma data_received i : data_only i -> i <> [] -> (0 < length (io_data i))%nat.
Proof. intros H N0. destruct i as [|x i]; [congruence|]. destruct (H x (or_introl eq_refl)) as (b & t & ->). cbn. lia. Qed.

Lemma poll_data a b i : rdir a b -> Forall rr_wf (en_sent a) -> en_hs b = en_greet a -> good (en_fr b) -> data_only i -> pipe_offers i (en_in b) = true ->
  exists r b', rr_poll i b = (r, b') /\ good (en_fr b') /\ en_sent b' = en_sent b /\
    ((r = PPending /\ en_items b' = en_items b /\ (length (pp_todo (en_in b')) + length (io_data i) = length (pp_todo (en_in b)))%nat /\
      (pp_todo (en_in b') = [] -> en_items b = en_sent a)) \/
     (exists m rest, r = PItem m /\ en_items b' = en_items b ++ [m] /\ en_sent a = en_items b ++ m :: rest)).
Proof.
  intros R W H G Di Of. destruct (dir_items a b R W (or_introl H)) as [rest E]. pose proof R as (D1 & D2 & D3 & D4).
  assert (B : rr_held (fr_codec (en_fr b)) ++ fr_buf (en_fr b) ++ pp_todo (en_in b) = rencs rest).
  { rewrite D3, H, <- !app_assoc in D1. apply app_inv_head in D1. rewrite E, rencs_app in D1. apply app_inv_head in D1. exact D1. }
  assert (Wr : Forall rr_wf rest) by (rewrite E in W; apply Forall_app in W; apply W).
  pose proof Of as Of'. unfold pipe_offers in Of'. apply prefixb_ok in Of'. destruct Of' as (tl & Et).
  pose proof G as (G1 & G2 & G3).
  assert (I0 : Inv rr_decode (fun _ => True) (en_fr b) (i ++ data_io tl) rest (TMore RRHeader [])).
  { split; [exact I|]. split; [exact G1|]. split; [exact G2|]. split; [|split; [|exact G3]].
    - apply Forall_app; split; [|destruct tl; constructor; [exact I|constructor]]. apply Forall_forall. intros x Hx. destruct (Di x Hx) as (b0 & t0 & ->). exact I.
    - rewrite received_app, data_io_received. change (received i) with (io_data i). rewrite <- Et. eapply stream_eqv; [apply held_decode; exact D2|]. rewrite B. apply rr_stream_encode. exact Wr. }
  pose proof (poll_inv rr_decode RRIo (fun _ => True) rr_w rr_incremental (i ++ data_io tl) (en_fr b) rest _ StillOpen I0) as P. cbn [ending_io] in P. rewrite !app_nil_r in P.
  destruct (rr_poll i b) as [r b'] eqn:Pl. exists r, b'. split; [reflexivity|].
  pose proof (end_poll_good _ _ _ _ G Pl) as Gd.
  destruct (rdir_poll a b _ _ _ R Of Pl) as (Np & R' & It & Hh & Hg & Hs & _).
  pose proof Pl as Pl0. unfold rr_poll, end_poll in Pl. destruct (framed_poll rr_decode RRIo (en_fr b) i) as [[r0 f] i'] eqn:Fp. inversion Pl; subst r0 b'; clear Pl. cbn [en_items en_fr en_in] in *.
  destruct r as [m|e| | |].
  - split; [exact Gd|]. split; [reflexivity|]. right. destruct (dir_items _ _ R' W) as [r2 E2]; [left; cbn; congruence|]. cbn [en_items] in E2. exists m, r2. split; [reflexivity|]. split; [reflexivity|]. rewrite E2, <- app_assoc. reflexivity.
  - exfalso. rewrite (poll_more _ _ (data_io tl) i _ _ _ _ Fp) in P by discriminate. destruct P as (X & ->). cbn in X. discriminate.
  - exfalso. rewrite (poll_more _ _ (data_io tl) i _ _ _ _ Fp) in P by discriminate. destruct P as (X & ->). cbn in X. discriminate.
  - split; [exact Gd|]. split; [reflexivity|]. left. split; [reflexivity|]. split; [apply app_nil_r|].
    assert (i' = []) by (eapply poll_pending_all; eauto). subst i'.
    pose proof (read_used i [] (en_in b)) as Ru. rewrite app_nil_r in Ru. destruct (Ru Of) as (_ & more & Em & Er). rewrite Er. cbn [pp_todo]. split; [rewrite Em, app_length; lia|].
    intros ->. assert (rest = []); [|subst rest; rewrite E, app_nil_r; reflexivity].
    rewrite app_nil_r in Em. destruct R' as (D1' & D2' & D3' & _). cbn [en_in en_fr en_hs en_items] in D1', D2', D3'. rewrite Er in D1', D3'. cbn [pp_done pp_todo] in D1', D3'. rewrite !app_nil_r in D1'.
    assert (B' : rr_held (fr_codec f) ++ fr_buf f = rencs rest).
    { rewrite D3', H, app_nil_r in D1'. apply app_inv_head in D1'. rewrite E, rencs_app in D1'. apply app_inv_head in D1'. exact D1'. }
    assert (St : stream rr_decode (fr_codec f) (fr_buf f) rest (TMore RRHeader [])). { eapply stream_eqv; [apply held_decode; exact D2'|]. rewrite B'. apply rr_stream_encode. exact Wr. }
    apply pending_unreadable in Fp. destruct Gd as (_ & _ & Gd). specialize (Gd Fp). inversion St; subst; congruence.
  - congruence.
Qed.
