(** Properties of connections that end in the middle of a message: C59. *)
From Coq Require Import List NArith.
From Verif Require Import Model.Base Model.Framed Model.WireReqRep Model.WirePubSub
  Spec.Wire Spec.Stream.
Import ListNotations.
Open Scope N_scope.
(*HEADEND*)
From Coq Require Import ZArith ZifyBool ZifyNat ZifyN.
From Verif Require Import Proofs.BaseP Proofs.FramedP Proofs.FramedP2 Proofs.ReqRepP Proofs.PubSubP Proofs.T_Wire.

Lemma app_split_ge {A} (a b x y : list A) : a ++ b = x ++ y -> (length x <= length a)%nat ->
  exists m, a = x ++ m /\ y = m ++ b.
Proof.
  revert a. induction x as [|h x IH]; intros a E L; cbn in *.
  - exists a. auto.
  - destruct a as [|h' a]; cbn in *; [lia|]. inversion E; subst. destruct (IH a H1 ltac:(lia)) as (m & -> & ->).
    exists m. auto.
Qed.

Lemma rr_cut id c p part missing :
  reqrep_frame id c p (part ++ missing) -> part <> [] -> missing <> [] ->
  (length part < 10 -> rr_decode RRHeader part = DNone RRHeader part)%nat /\
  (10 <= length part -> exists h r, rr_decode RRHeader part = DNone (RRPayload h) r /\ length r = length part - 10)%nat.
Proof.
  intros (idb & szb & [Li _] & [Ls Hs] & E) Hp Hm. destruct part as [|x part]; [contradiction|].
  cbn [app] in E. inversion E; subst x. split; intros L.
  - cbn [rr_decode]. apply rr_header_short. unfold blen. lia.
  - destruct (app_split_ge part missing (c :: idb ++ szb) p) as (r & -> & ->).
    { rewrite H1. cbn [app]. rewrite <- app_assoc. reflexivity. }
    { cbn. rewrite app_length. cbn in L. lia. }
    exists {| rrh_ctype := c; rrh_id := get_be idb; rrh_size := get_be szb |}, r.
    cbn [rr_decode app]. rewrite <- app_assoc, rr_header_full by assumption. split.
    + apply rr_payload_short. cbn [rrh_size]. destruct missing as [|y mi]; [contradiction|].
      rewrite get_be_value, Hs. unfold blen. rewrite app_length. cbn [length]. lia.
    + cbn. rewrite !app_length. lia.
Qed.

(*@prop C59, request/reply. After any complete frames the peer sends only a proper part of a frame and closes:
    the cut message is not delivered, and the end of the stream is reported as an error, except when exactly
    the ten header bytes of a frame with a payload arrived: then it looks like an orderly close. *)
Lemma C59_truncation_reported_partial_pf :
  forall (reqs : list (N * byte * bytes)) (frames : list bytes) (id : N) (c : byte) (p part missing : bytes)
         (input : list io) (n : nat),
  Forall2 (fun r f => reqrep_frame (fst (fst r)) (snd (fst r)) (snd r) f) reqs frames ->
  reqrep_frame id c p (part ++ missing) -> part <> [] -> missing <> [] ->
  Forall delivery input -> received input = concat frames ++ part ->
  (length reqs + length input + 2 <= n)%nat ->
  let rs := fst (fst (framed_polls rr_decode RRIo n (framed_new RRHeader) (input ++ ending_io Eof))) in
  exists ms : list rr_msg,
    map (fun m => (rr_id m, rr_ctype m, rr_payload m)) ms = reqs /\
    (length part <> 10%nat -> observed rs = map PItem ms ++ [PFail RRIo]) /\
    (length part = 10%nat -> observed rs = map PItem ms ++ [PEnd]).
Proof.
  intros reqs frames id c p part missing input n HF Hcut Hp Hm Hd HR Hn rs.
  apply frames_rr in HF as [Hwf ->].
  set (ms := map (fun r => rr_new (fst (fst r)) (snd (fst r)) (snd r)) reqs) in *.
  exists ms. split.
  { unfold ms. rewrite map_map. rewrite <- (map_id reqs) at 2. apply map_ext. intros [[i k] q]. reflexivity. }
  assert (HL : length ms = length reqs) by apply map_length.
  destruct (rr_cut _ _ _ _ _ Hcut Hp Hm) as [C1 C2].
  assert (X : exists s r, rr_decode RRHeader part = DNone s r /\ (length part <> 10 -> r <> [])%nat /\ (length part = 10 -> r = [])%nat).
  { destruct (Nat.lt_ge_cases (length part) 10) as [L|L].
    - exists RRHeader, part. split; [exact (C1 L)|]. split; [intros _; exact Hp|intros; lia].
    - destruct (C2 L) as (h & r & E & Lr). exists (RRPayload h), r. split; [exact E|]. split.
      + intros N0 ->. cbn in Lr. lia.
      + intros E0. apply length_zero_iff_nil. lia. }
  destruct X as (s & r & E & N1 & N2).
  assert (HI : Inv rr_decode (fun _ => True) (framed_new RRHeader) input ms (TMore s r)).
  { apply inv_new; auto. rewrite HR. rewrite <- (app_nil_r ms) at 2.
    apply rr_stream_app; [exact Hwf|apply st_more; exact E]. }
  destruct (polls_expected rr_decode RRIo (fun _ => True) rr_w rr_incremental n _ _ _ _ Eof HI) as [_ P].
  fold rs in P. rewrite P by lia. unfold expected. split; intros L.
  - destruct r; [exfalso; apply (N1 L); reflexivity|reflexivity].
  - rewrite (N2 L). reflexivity.
Qed.

Lemma ps_cut c topic ts seq p part missing :
  pubsub_frame c topic ts seq p (part ++ missing) -> part <> [] -> missing <> [] ->
  let h := (20 + length topic)%nat in
  (length part < h -> ps_decode PSHeader part = DNone PSHeader part)%nat /\
  (h <= length part -> exists h' r, ps_decode PSHeader part = DNone (PSPayload (Some h')) r /\ length r = length part - h)%nat.
Proof.
  intros (tszb & tsb & seqb & szb & [Lt Ht] & [L8 _] & [Lq _] & [Ls Hs] & E) Hp Hm h.
  destruct part as [|x part]; [contradiction|]. cbn [app] in E. injection E as -> H0.
  destruct tszb as [|b2 [|b3 [|]]]; cbn in Lt; try lia.
  assert (G : get_be [b2; b3] = blen topic) by (rewrite get_be_value; exact Ht).
  split; intros L.
  - cbn [ps_decode]. destruct (Nat.lt_ge_cases (length part) 3) as [L3|L3].
    + apply ps_header_short4. unfold blen. cbn [length]. lia.
    + destruct (app_split_ge part missing [c; b2; b3] (topic ++ tsb ++ seqb ++ szb ++ p)) as (r & -> & _);
        [rewrite H0; reflexivity|exact L3|].
      cbn [app]. apply ps_header_short. unfold ps_need. rewrite G. cbn [length app] in L. unfold blen. cbn [length]. lia.
  - destruct (app_split_ge part missing (c :: b2 :: b3 :: topic ++ tsb ++ seqb ++ szb) p) as (r & -> & ->).
    { rewrite H0. cbn [app]. rewrite <- !app_assoc. reflexivity. }
    { cbn. rewrite !app_length. cbn in L. lia. }
    exists (mk_hdr c b2 b3 topic tsb seqb szb), r.
    cbn [ps_decode app]. rewrite <- !app_assoc, ps_header_full by (assumption || (symmetry; assumption)). split.
    + apply ps_payload_short. unfold mk_hdr. cbn [psh_size]. destruct missing as [|y mi]; [contradiction|].
      rewrite get_be_value, Hs. unfold blen. rewrite app_length. cbn [length]. lia.
    + cbn. rewrite !app_length. lia.
Qed.

(*@prop C59, publish/subscribe: the same, the header being 20 bytes plus the topic. *)
Lemma C59_pubsub_truncation_reported_partial_pf :
  forall (msgs : list (byte * bytes * N * N * bytes)) (frames : list bytes)
         (c : byte) (topic : bytes) (ts seq : N) (p part missing : bytes) (input : list io) (n : nat),
  Forall2 (fun m f => let '(c, topic, ts, seq, p) := m in pubsub_frame c topic ts seq p f) msgs frames ->
  pubsub_frame c topic ts seq p (part ++ missing) -> part <> [] -> missing <> [] ->
  Forall delivery input -> received input = concat frames ++ part ->
  (length msgs + length input + 2 <= n)%nat ->
  let rs := fst (fst (framed_polls ps_decode PSIo n (framed_new PSHeader) (input ++ ending_io Eof))) in
  exists ms : list ps_msg,
    map (fun m => (ps_ctype m, ps_topic m, ps_timestamp m, ps_seq m, ps_payload m)) ms = msgs /\
    (length part <> (20 + length topic)%nat -> observed rs = map PItem ms ++ [PFail PSIo]) /\
    (length part = (20 + length topic)%nat -> observed rs = map PItem ms ++ [PEnd]).
Proof.
  intros msgs frames c topic ts seq p part missing input n HF Hcut Hp Hm Hd HR Hn rs.
  assert (X : exists ms, Forall ps_wf ms /\ frames = map ps_encode ms /\
     map (fun m => (ps_ctype m, ps_topic m, ps_timestamp m, ps_seq m, ps_payload m)) ms = msgs).
  { clear - HF. induction HF as [|[[[[c topic] ts] seq] p] f ml fl H _ IH].
    - exists []. repeat split; constructor.
    - destruct IH as (ms & W & -> & V). apply ps_frame_encode in H as (H1 & H2 & H3 & m & E & ->).
      exists (m :: ms). split; [constructor; [eapply ps_new_wf; eassumption|exact W]|].
      split; [reflexivity|]. cbn [map]. rewrite V. f_equal.
      unfold ps_new in E. destruct (blen topic <? 2 ^ 16); inversion E; reflexivity. }
  destruct X as (ms & Hwf & -> & V). exists ms. split; [exact V|].
  assert (HL : length ms = length msgs) by (rewrite <- V; symmetry; apply map_length).
  destruct (ps_cut _ _ _ _ _ _ _ Hcut Hp Hm) as [C1 C2].
  assert (X : exists s r, ps_decode PSHeader part = DNone s r /\ (length part <> 20 + length topic -> r <> [])%nat /\
                          (length part = 20 + length topic -> r = [])%nat).
  { destruct (Nat.lt_ge_cases (length part) (20 + length topic)) as [L|L].
    - exists PSHeader, part. split; [exact (C1 L)|]. split; [intros _; exact Hp|intros; lia].
    - destruct (C2 L) as (h & r & E & Lr). exists (PSPayload (Some h)), r. split; [exact E|]. split.
      + intros N0 ->. cbn in Lr. lia.
      + intros E0. apply length_zero_iff_nil. lia. }
  destruct X as (s & r & E & N1 & N2).
  assert (HI : Inv ps_decode ps_ok (framed_new PSHeader) input ms (TMore s r)).
  { apply inv_new; auto; [exact I|]. rewrite HR. rewrite <- (app_nil_r ms) at 2.
    apply ps_stream_app; [exact Hwf|apply st_more; exact E]. }
  destruct (polls_expected ps_decode PSIo ps_ok ps_w ps_incremental n _ _ _ _ Eof HI) as [_ P].
  fold rs in P. rewrite P by lia. unfold expected. split; intros L.
  - destruct r; [exfalso; apply (N1 L); reflexivity|reflexivity].
  - rewrite (N2 L). reflexivity.
Qed.

(*@prop C59 (violated): a peer that dies right after the header of a 5-byte message is indistinguishable from an
    orderly close. *)
Lemma C59_truncation_reported_refuted_pf :
  exists (part missing : bytes), reqrep_frame 1 x00 missing (part ++ missing) /\ length missing = 5%nat /\
  observed (fst (fst (framed_polls rr_decode RRIo 9 (framed_new RRHeader) ([IoData part] ++ ending_io Eof)))) = [PEnd].
Proof.
  exists [x02; x00; x00; x00; x00; x01; x00; x00; x00; x05], [x68; x65; x6c; x6c; x6f].
  split; [exists [x00; x00; x00; x01], [x00; x00; x00; x05]; repeat split|]. split; reflexivity.
Qed.

(*@example *)
Lemma C59_example_pf :
  let part := [x02; x00; x00; x00; x00; x01; x00; x00; x00; x05; x68] in
  let missing := [x65; x6c; x6c; x6f] in
  reqrep_frame 1 x00 (x68 :: missing) (part ++ missing) /\
  observed (fst (fst (framed_polls rr_decode RRIo 9 (framed_new RRHeader) ([IoData part] ++ ending_io Eof)))) = [PFail RRIo].
Proof.
  intros part missing. split; [|reflexivity].
  exists [x00; x00; x00; x01], [x00; x00; x00; x05]; repeat split.
Qed.
