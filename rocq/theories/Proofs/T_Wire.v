(** Properties of the wire codecs: C01-C07. *)
From Coq Require Import List NArith.
From Verif Require Import Model.Base Model.Framed Model.WireReqRep Model.WirePubSub Model.WireAuth
  Spec.Wire Spec.Stream Spec.AuthCuts.
Import ListNotations.
Open Scope N_scope.
(*HEADEND*)
From Coq Require Import ZArith ZifyBool ZifyNat ZifyN.
From Verif Require Import Proofs.BaseP Proofs.FramedP Proofs.FramedP2 Proofs.ReqRepP Proofs.PubSubP Proofs.AuthP.

Lemma frames_rr reqs frames :
  Forall2 (fun r f => reqrep_frame (fst (fst r)) (snd (fst r)) (snd r) f) reqs frames ->
  Forall rr_wf (map (fun r => rr_new (fst (fst r)) (snd (fst r)) (snd r)) reqs) /\
  frames = map rr_encode (map (fun r => rr_new (fst (fst r)) (snd (fst r)) (snd r)) reqs).
Proof.
  induction 1 as [|r f rs fs H _ [IH1 IH2]]; [split; constructor|].
  apply rr_frame_encode in H as (H1 & H2 & ->). split; cbn [map].
  - constructor; [apply rr_new_wf; assumption|exact IH1].
  - rewrite IH2. reflexivity.
Qed.

(*@prop C01. Frames of any list of (id, compression type, payload), built from the protocol description,
    delivered in any pieces at any moments: at every moment the results seen are a prefix of the
    messages, after enough polls they are exactly the messages, and the decoder is back in its initial
    state with nothing buffered. *)
Lemma C01_reqrep_fragmentation_pf :
  forall (reqs : list (N * byte * bytes)) (frames : list bytes) (input : list io) (n : nat),
  Forall2 (fun r f => reqrep_frame (fst (fst r)) (snd (fst r)) (snd r) f) reqs frames ->
  Forall delivery input ->
  received input = concat frames ->
  exists ms : list rr_msg,
    map (fun m => (rr_id m, rr_ctype m, rr_payload m)) ms = reqs /\
    let '(rs, f', rest) := framed_polls rr_decode RRIo n (framed_new RRHeader) input in
    prefix_of (observed rs) (map PItem ms) /\
    ((length reqs + length input + 1 <= n)%nat ->
     observed rs = map PItem ms /\ fr_codec f' = RRHeader /\ fr_buf f' = [] /\ rest = []).
Proof.
  intros reqs frames input n HF Hd HR.
  apply frames_rr in HF as [Hwf ->].
  set (ms := map (fun r => rr_new (fst (fst r)) (snd (fst r)) (snd r)) reqs) in *.
  exists ms. split.
  { unfold ms. rewrite map_map. rewrite <- (map_id reqs) at 2. apply map_ext. intros [[id c] p]. reflexivity. }
  assert (HI : Inv rr_decode (fun _ => True) (framed_new RRHeader) input ms (TMore RRHeader [])).
  { apply inv_new; auto. rewrite HR. rewrite <- (app_nil_r (concat _)). rewrite <- (app_nil_r ms) at 2.
    apply rr_stream_app; [exact Hwf|apply st_more; reflexivity]. }
  pose proof (polls_expected rr_decode RRIo (fun _ => True) rr_w rr_incremental n _ _ _ _ StillOpen HI) as P1.
  pose proof (polls_state rr_decode RRIo (fun _ => True) rr_w rr_incremental n _ _ _ _ _ HI) as P2.
  cbn [ending_io] in P1. rewrite app_nil_r in P1.
  assert (HL : length ms = length reqs) by apply map_length.
  destruct (framed_polls rr_decode RRIo n (framed_new RRHeader) input) as [[rs f'] rest].
  cbn [fst] in P1. unfold expected in P1. rewrite app_nil_r in P1. destruct P1 as [P1 P1'].
  split; [exact P1|]. intros Hn. rewrite <- HL in Hn. specialize (P2 Hn). destruct P2 as (A & B & C & _).
  auto.
Qed.

(*@prop C01. Every message the API can build from an id below 2^32 and a payload below 4 GiB is encoded as
    such a frame. *)
Lemma C01_encoder_conforms_pf :
  forall (id : N) (c : byte) (p : bytes), id < 2 ^ 32 -> blen p < 2 ^ 32 ->
  reqrep_frame id c p (rr_encode (rr_new id c p)).
Proof. intros. apply rr_frame_encode. auto. Qed.

(*@example *)
Lemma C01_example_pf :
  let input := [IoData [x02]; IoPending; IoData [x03; x00; x00]; IoData [x01; x04; x00; x00; x00; x02; x41];
                IoData [x42; x02; x00; x00; x00; x00; x00; x00; x00; x00; x00]] in
  Forall delivery input /\
  (exists frames, Forall2 (fun r f => reqrep_frame (fst (fst r)) (snd (fst r)) (snd r) f)
     [(260, x03, [x41; x42]); (0, x00, [])] frames /\ received input = concat frames).
Proof.
  split; [repeat constructor|].
  exists [[x02; x03; x00; x00; x01; x04; x00; x00; x00; x02; x41; x42]; [x02; x00; x00; x00; x00; x00; x00; x00; x00; x00]].
  split; [|reflexivity]. constructor; [|constructor; [|constructor]].
  - exists [x00; x00; x01; x04], [x00; x00; x00; x02]. repeat split.
  - exists [x00; x00; x00; x00], [x00; x00; x00; x00]. repeat split.
Qed.

Definition pub := (byte * bytes * N * N * bytes)%type.

(*@prop C02. The same for publish/subscribe frames: (compression type, topic, timestamp, seq, payload). *)
Lemma C02_pubsub_fragmentation_pf :
  forall (msgs : list (byte * bytes * N * N * bytes)) (frames : list bytes) (input : list io) (n : nat),
  Forall2 (fun m f => let '(c, topic, ts, seq, p) := m in pubsub_frame c topic ts seq p f) msgs frames ->
  Forall delivery input ->
  received input = concat frames ->
  exists ms : list ps_msg,
    map (fun m => (ps_ctype m, ps_topic m, ps_timestamp m, ps_seq m, ps_payload m)) ms = msgs /\
    let '(rs, f', rest) := framed_polls ps_decode PSIo n (framed_new PSHeader) input in
    prefix_of (observed rs) (map PItem ms) /\
    ((length msgs + length input + 1 <= n)%nat ->
     observed rs = map PItem ms /\ fr_codec f' = PSHeader /\ fr_buf f' = [] /\ rest = []).
Proof.
  intros msgs frames input n HF Hd HR.
  assert (X : exists ms, Forall ps_wf ms /\ frames = map ps_encode ms /\
     map (fun m => (ps_ctype m, ps_topic m, ps_timestamp m, ps_seq m, ps_payload m)) ms = msgs).
  { clear HR. induction HF as [|[[[[c topic] ts] seq] p] f ml fl H _ IH].
    - exists []. repeat split; constructor.
    - destruct IH as (ms & W & -> & V). apply ps_frame_encode in H as (H1 & H2 & H3 & m & E & ->).
      exists (m :: ms). split; [constructor; [eapply ps_new_wf; eassumption|exact W]|].
      split; [reflexivity|]. cbn [map]. rewrite V. f_equal.
      unfold ps_new in E. destruct (blen topic <? 2 ^ 16); inversion E; reflexivity. }
  destruct X as (ms & Hwf & -> & V). exists ms. split; [exact V|].
  assert (HI : Inv ps_decode ps_ok (framed_new PSHeader) input ms (TMore PSHeader [])).
  { apply inv_new; auto; [exact I|]. rewrite HR. rewrite <- (app_nil_r (concat _)). rewrite <- (app_nil_r ms) at 2.
    apply ps_stream_app; [exact Hwf|apply st_more; reflexivity]. }
  pose proof (polls_expected ps_decode PSIo ps_ok ps_w ps_incremental n _ _ _ _ StillOpen HI) as P1.
  pose proof (polls_state ps_decode PSIo ps_ok ps_w ps_incremental n _ _ _ _ _ HI) as P2.
  cbn [ending_io] in P1. rewrite app_nil_r in P1.
  assert (HL : length ms = length msgs) by (rewrite <- V; symmetry; apply map_length).
  destruct (framed_polls ps_decode PSIo n (framed_new PSHeader) input) as [[rs f'] rest].
  cbn [fst] in P1. unfold expected in P1. rewrite app_nil_r in P1. destruct P1 as [P1 P1'].
  split; [exact P1|]. intros Hn. rewrite <- HL in Hn. specialize (P2 Hn). destruct P2 as (A & B & C & _).
  auto.
Qed.

(*@prop C02. Message::new accepts exactly the topics up to 65535 bytes and yields such a frame. *)
Lemma C02_encoder_conforms_pf :
  forall (now seq : N) (topic payload : bytes) (c : byte),
  now < 2 ^ 64 -> seq < 2 ^ 32 -> blen payload < 2 ^ 32 ->
  (blen topic <= 65535 <-> exists m, ps_new now seq topic payload c = Some m) /\
  (forall m, ps_new now seq topic payload c = Some m -> pubsub_frame c topic now seq payload (ps_encode m)).
Proof.
  intros now seq topic payload c Hn Hs Hp. split.
  - unfold ps_new. destruct (N.ltb_spec (blen topic) (2 ^ 16)); split; intros H'.
    + eauto.
    + lia.
    + lia.
    + destruct H' as [? H']; discriminate.
  - intros m E. apply ps_frame_encode. repeat split; auto. exists m. auto.
Qed.

(*@example *)
Lemma C02_example_pf :
  let input := [IoData [x03; x00; x00]; IoData [x01; x41; x00; x00; x00; x00; x00; x00; x00; x07]; IoPending;
                IoData [x00; x00; x00; x05; x00; x00; x00; x02; x42; x43]] in
  Forall delivery input /\
  (exists frames, Forall2 (fun m f => let '(c, topic, ts, seq, p) := m in pubsub_frame c topic ts seq p f)
     [(x00, [x41], 7, 5, [x42; x43])] frames /\ received input = concat frames).
Proof.
  split; [repeat constructor|].
  exists [[x03; x00; x00; x01; x41; x00; x00; x00; x00; x00; x00; x00; x07; x00; x00; x00; x05; x00; x00; x00; x02; x42; x43]].
  split; [|reflexivity]. constructor; [|constructor].
  exists [x00; x01], [x00; x00; x00; x00; x00; x00; x00; x07], [x00; x00; x00; x05], [x00; x00; x00; x02]. repeat split.
Qed.

(*@prop C03 (the unchanged code violates it). A 3-byte token whose frame is split after 6 bytes, or after
    4 bytes, panics the server's decoder although the frame is well formed. *)
Lemma C03_auth_fragmentation_refuted_pf :
  exists (token frame : bytes) (input : list io) (n : nat),
    auth_frame token frame /\ Forall delivery input /\ received input = frame /\
    observed (fst (fst (framed_polls au_decode AUIo n (framed_new au_server) input))) = [PPanic].
Proof.
  exists [x41; x42; x43], [x01; x00; x00; x00; x03; x41; x42; x43],
    [IoData [x01; x00; x00; x00; x03; x41]; IoData [x42; x43]], 3%nat.
  split; [exists [x00; x00; x00; x03]; repeat split|].
  split; [repeat constructor|]. split; reflexivity.
Qed.

(*@prop C03, what holds: exactly when no read ends at one of the fatal positions (4 bytes, or between
    max(5, k) and k + 4 bytes for a k-byte token) the server obtains exactly the token; otherwise it panics.
    Missing for the full property: absence of the panics. *)
Lemma C03_auth_fragmentation_partial_pf :
  forall (token frame : bytes) (input : list io) (n : nat),
  auth_frame token frame -> Forall delivery input -> received input = frame ->
  (length input + 1 <= n)%nat ->
  observed (fst (fst (framed_polls au_decode AUIo n (framed_new au_server) input))) =
  if existsb (fatal_cut (blen token)) (cuts 0 input) then [PPanic] else [PItem (AuthM token)].
Proof. exact au_handshake. Qed.

(*@prop C03. The client's encoder emits such a frame for every token below 4 GiB. *)
Lemma C03_encoder_conforms_pf :
  forall (token : bytes), blen token < 2 ^ 32 ->
  auth_frame token (fst (au_encode au_client (AuthM token))).
Proof. intros token H. apply (au_frame_encode token _ au_client). auto. Qed.

(*@prop C03, the other direction of the handshake: the server's ack (01 01) or reject (01 00) is understood
    by the client however it is split, and the ack comes out exactly once. *)
Lemma C03_ack_fragmentation_pf :
  forall (input : list io) (n : nat) (m : au_msg),
  Forall delivery input -> m = AckM \/ m = RejectM ->
  received input = fst (au_encode au_server m) -> (length input + 2 <= n)%nat ->
  observed (fst (fst (framed_polls au_decode AUIo n (framed_new au_client) input))) =
  match m with AckM => [PItem AckM] | _ => [PFail AURejected] end.
Proof.
  intros input n m Hd [-> | ->] HR Hn.
  - pose proof (polls_expected au_decode AUIo _ _ au_client_incremental n (framed_new au_client) input
       [AckM] (TMore AUAck []) StillOpen) as P.
    cbn [ending_io] in P. rewrite app_nil_r in P. apply P.
    + apply inv_new; auto. rewrite HR. eapply st_msg; [reflexivity|apply st_more; reflexivity].
    + cbn; lia.
  - pose proof (polls_expected au_decode AUIo _ _ au_client_incremental n (framed_new au_client) input
       [] (TBad AURejected AUAck []) StillOpen) as P.
    cbn [ending_io] in P. rewrite app_nil_r in P. apply P.
    + apply inv_new; auto. rewrite HR. eapply st_bad; reflexivity.
    + cbn; lia.
Qed.

(*@example *)
Lemma C03_example_pf :
  let input := [IoData [x01; x00]; IoPending; IoData [x00; x00; x07; x41]; IoData [x42; x43; x44; x45; x46; x47]] in
  auth_frame [x41; x42; x43; x44; x45; x46; x47] (received input) /\ Forall delivery input /\
  existsb (fatal_cut 7) (cuts 0 input) = false.
Proof.
  split; [exists [x00; x00; x00; x07]; repeat split|]. split; [repeat constructor|reflexivity].
Qed.

(*@prop C04, request/reply: for every behaviour of the transport (data, end of file, errors, in any order),
    after any number of polls no panic has occurred and the bytes delivered so far are exactly the frames of
    the messages yielded, followed by the bytes the connection still holds ([held]: a header already taken
    out of the buffer, or nothing) and the bytes not yet read. *)
Lemma C04_reqrep_no_panic_no_loss_pf :
  forall (input : list io) (n : nat),
  let '(rs, f', rest) := framed_polls rr_decode RRIo n (framed_new RRHeader) input in
  ~ In PPanic rs /\
  exists held : bytes,
    (held = [] \/ (exists h, fr_codec f' = RRPayload h) /\ length held = 10%nat) /\
    received input = concat (map rr_encode (items rs)) ++ held ++ fr_buf f' ++ received rest.
Proof.
  intros input n.
  pose proof (polls_conserve rr_decode RRIo rr_ok rr_held rr_encode rr_conserving n (framed_new RRHeader) input I) as P.
  destruct (framed_polls rr_decode RRIo n (framed_new RRHeader) input) as [[rs f'] rest].
  destruct P as (P1 & P2 & P3). split; [exact P1|].
  exists (rr_held (fr_codec f')). split; [|exact P3].
  destruct (fr_codec f') as [|h] eqn:E; [left; reflexivity|right]. split; [eauto|].
  unfold rr_held. cbn [length]. rewrite app_length, !put_be_length. reflexivity.
Qed.

(*@prop C04, publish/subscribe. *)
Lemma C04_pubsub_no_panic_no_loss_pf :
  forall (input : list io) (n : nat),
  let '(rs, f', rest) := framed_polls ps_decode PSIo n (framed_new PSHeader) input in
  ~ In PPanic rs /\
  exists held : bytes,
    (held = [] \/ exists h, fr_codec f' = PSPayload (Some h) /\ blen held = 20 + psh_topic_size h) /\
    received input = concat (map ps_encode (items rs)) ++ held ++ fr_buf f' ++ received rest.
Proof.
  intros input n.
  pose proof (polls_conserve ps_decode PSIo ps_ok ps_held ps_encode ps_conserving n (framed_new PSHeader) input I) as P.
  destruct (framed_polls ps_decode PSIo n (framed_new PSHeader) input) as [[rs f'] rest].
  destruct P as (P1 & P2 & P3). split; [exact P1|].
  exists (ps_held (fr_codec f')). split; [|exact P3].
  destruct (fr_codec f') as [|[h|]] eqn:E; [left; reflexivity|right|contradiction]. exists h. split; [reflexivity|].
  destruct P2 as (A & _). unfold ps_held. rewrite !blen_cons, !blen_app. unfold blen at 1 3 4 5.
  rewrite !put_be_length, <- A. lia.
Qed.

(*@prop C04, authentication (violated): the server's decoder panics exactly on these buffers. *)
Lemma C04_auth_panics_partial_pf :
  forall b : bytes,
  au_decode au_server b = DPanic <->
  exists r, b = x01 :: r /\
    (length r = 3%nat \/
     exists szb t, r = szb ++ t /\ length szb = 4%nat /\ be_value szb <= blen t + 5 /\ blen t < be_value szb).
Proof. exact au_server_panic. Qed.

(*@prop C04, authentication: a 4-byte message from any client panics the server's authentication task. *)
Lemma C04_auth_no_panic_refuted_pf :
  exists b : bytes, au_decode au_server b = DPanic.
Proof. exists [x01; x00; x00; x00]. reflexivity. Qed.

(*@prop C04, authentication: the client's side never panics. *)
Lemma C04_auth_client_no_panic_pf :
  forall b : bytes, au_decode au_client b <> DPanic.
Proof. intros b. apply (inc_nopanic _ _ _ au_client_incremental). reflexivity. Qed.

(*@example *)
Lemma C04_example_pf :
  let input := [IoData [x02; x00; x00; x00; x00; x01; x00; x00; x00; x01]; IoData [x58; x09]; IoErr; IoData []] in
  fst (fst (framed_polls rr_decode RRIo 4 (framed_new RRHeader) input)) =
    [PItem (rr_new 1 x00 [x58]); PFail (RRWireId x09); PEnd; PFail RRIo].
Proof. reflexivity. Qed.

(*@prop C05, request/reply: after any frames, a foreign byte yields the wire-id error carrying that byte,
    whatever the chunking, whatever follows and however the stream ends; nothing of the foreign data is
    consumed, and no message is produced ever after, even if the connection is polled on. *)
Lemma C05_reqrep_foreign_rejected_pf :
  forall (reqs : list (N * byte * bytes)) (frames : list bytes) (b : byte) (junk : bytes)
         (input : list io) (en : ending) (n : nat),
  Forall2 (fun r f => reqrep_frame (fst (fst r)) (snd (fst r)) (snd r) f) reqs frames ->
  b <> x02 -> Forall delivery input -> received input = concat frames ++ b :: junk ->
  let rs := fst (fst (framed_polls rr_decode RRIo n (framed_new RRHeader) (input ++ ending_io en))) in
  exists ms : list rr_msg,
    map (fun m => (rr_id m, rr_ctype m, rr_payload m)) ms = reqs /\
    prefix_of (observed rs) (map PItem ms ++ [PFail (RRWireId b)]) /\
    ((length reqs + length input + 1 <= n)%nat -> observed rs = map PItem ms ++ [PFail (RRWireId b)]) /\
    prefix_of (items rs) ms.
Proof.
  intros reqs frames b junk input en n HF Hb Hd HR rs.
  apply frames_rr in HF as [Hwf ->].
  set (ms := map (fun r => rr_new (fst (fst r)) (snd (fst r)) (snd r)) reqs) in *.
  exists ms. split.
  { unfold ms. rewrite map_map. rewrite <- (map_id reqs) at 2. apply map_ext. intros [[id c] p]. reflexivity. }
  assert (HI : Inv rr_decode (fun _ => True) (framed_new RRHeader) input ms (TBad (RRWireId b) RRHeader (b :: junk))).
  { apply inv_new; auto. rewrite HR. rewrite <- (app_nil_r ms) at 2.
    apply rr_stream_app; [exact Hwf|apply st_bad; apply rr_header_foreign; exact Hb]. }
  pose proof (polls_expected rr_decode RRIo (fun _ => True) rr_w rr_incremental n _ _ _ _ en HI) as P1.
  assert (HL : length ms = length reqs) by apply map_length. rewrite HL in P1.
  destruct P1 as [P1 P1']. split; [exact P1|]. split; [exact P1'|].
  refine (bad_polls rr_decode RRIo (fun _ => True) rr_w rr_incremental _ n _ _ _ _ _ _ en HI).
  intros s b0 e s' r _ D. destruct (rr_err_inv _ _ _ _ _ D) as (-> & -> & _). auto.
Qed.

(*@prop C05: the decoder itself consumes nothing, and rejects again with any further input appended. *)
Lemma C05_decoders_consume_nothing_pf :
  forall (b : byte) (rest : bytes),
  (b <> x02 -> rr_decode RRHeader (b :: rest) = DErr (RRWireId b) RRHeader (b :: rest)) /\
  (b <> x03 -> ps_decode PSHeader (b :: rest) = DErr (PSWireId b) PSHeader (b :: rest)) /\
  (b <> x01 -> au_decode au_server (b :: rest) = DErr (AUWireId b) au_server (b :: rest)) /\
  (b <> x01 -> rest <> [] -> au_decode au_client (b :: rest) = DErr (AUWireId b) au_client (b :: rest)).
Proof.
  intros b rest. split; [|split; [|split]].
  - apply rr_header_foreign.
  - apply ps_header_foreign.
  - apply au_rcv_foreign.
  - intros Hb Hr. destruct rest as [|y r]; [contradiction|]. unfold au_client. rewrite au_ack_two.
    destruct (byte_eqb_spec b x01); [contradiction|]. reflexivity.
Qed.

(*@prop C05, publish/subscribe. *)
Lemma C05_pubsub_foreign_rejected_pf :
  forall (msgs : list (byte * bytes * N * N * bytes)) (frames : list bytes) (b : byte) (junk : bytes)
         (input : list io) (en : ending) (n : nat),
  Forall2 (fun m f => let '(c, topic, ts, seq, p) := m in pubsub_frame c topic ts seq p f) msgs frames ->
  b <> x03 -> Forall delivery input -> received input = concat frames ++ b :: junk ->
  let rs := fst (fst (framed_polls ps_decode PSIo n (framed_new PSHeader) (input ++ ending_io en))) in
  exists ms : list ps_msg,
    map (fun m => (ps_ctype m, ps_topic m, ps_timestamp m, ps_seq m, ps_payload m)) ms = msgs /\
    prefix_of (observed rs) (map PItem ms ++ [PFail (PSWireId b)]) /\
    ((length msgs + length input + 1 <= n)%nat -> observed rs = map PItem ms ++ [PFail (PSWireId b)]) /\
    prefix_of (items rs) ms.
Proof.
  intros msgs frames b junk input en n HF Hb Hd HR rs.
  assert (X : exists ms, Forall ps_wf ms /\ frames = map ps_encode ms /\
     map (fun m => (ps_ctype m, ps_topic m, ps_timestamp m, ps_seq m, ps_payload m)) ms = msgs).
  { clear HR. induction HF as [|[[[[c topic] ts] seq] p] f ml fl H _ IH].
    - exists []. repeat split; constructor.
    - destruct IH as (ms & W & -> & V). apply ps_frame_encode in H as (H1 & H2 & H3 & m & E & ->).
      exists (m :: ms). split; [constructor; [eapply ps_new_wf; eassumption|exact W]|].
      split; [reflexivity|]. cbn [map]. rewrite V. f_equal.
      unfold ps_new in E. destruct (blen topic <? 2 ^ 16); inversion E; reflexivity. }
  destruct X as (ms & Hwf & -> & V). exists ms. split; [exact V|].
  assert (HI : Inv ps_decode ps_ok (framed_new PSHeader) input ms (TBad (PSWireId b) PSHeader (b :: junk))).
  { apply inv_new; auto; [exact I|]. rewrite HR. rewrite <- (app_nil_r ms) at 2.
    apply ps_stream_app; [exact Hwf|apply st_bad; apply ps_header_foreign; exact Hb]. }
  pose proof (polls_expected ps_decode PSIo ps_ok ps_w ps_incremental n _ _ _ _ en HI) as P1.
  assert (HL : length ms = length msgs) by (rewrite <- V; symmetry; apply map_length). rewrite HL in P1.
  destruct P1 as [P1 P1']. split; [exact P1|]. split; [exact P1'|].
  refine (bad_polls ps_decode PSIo ps_ok ps_w ps_incremental _ n _ _ _ _ _ _ en HI).
  intros s b0 e s' r Hok D. pose proof (ps_decode_spec s b0 Hok) as Q. rewrite D in Q.
  destruct Q as (-> & -> & _). auto.
Qed.

(*@prop C06: for an arbitrary byte stream and any way it ends, what the user of a request/reply connection
    sees is the same for every chunking (and timing) of the stream. *)
Lemma C06_reqrep_chunking_independent_pf :
  forall (stream : bytes) (en : ending), exists out : list (polled rr_msg rr_err),
  forall (input : list io) (n : nat),
  Forall delivery input -> received input = stream -> (length stream + length input + 1 <= n)%nat ->
  observed (fst (fst (framed_polls rr_decode RRIo n (framed_new RRHeader) (input ++ ending_io en)))) = out.
Proof.
  intros stream en.
  destruct (stream_total rr_decode (fun _ => True) rr_w rr_incremental RRHeader stream I) as (ms & t & Hst).
  exists (expected RRIo ms t en). intros input n Hd HR Hn.
  eapply (polls_expected rr_decode RRIo (fun _ => True) rr_w rr_incremental).
  - apply inv_new; auto. rewrite HR. exact Hst.
  - assert (forall s b, FramedP.stream rr_decode s b ms t -> length ms <= length b + rr_w s)%nat as HL.
    { clear. intros s b H. induction H as [| |s b m s' r ms t D H IH]; cbn; try lia.
      destruct (inc_msg _ _ _ rr_incremental _ _ _ _ _ I D) as (_ & _ & Hlt). lia. }
    specialize (HL _ _ Hst). cbn in HL. lia.
Qed.

(*@prop C06, publish/subscribe. *)
Lemma C06_pubsub_chunking_independent_pf :
  forall (stream : bytes) (en : ending), exists out : list (polled ps_msg ps_err),
  forall (input : list io) (n : nat),
  Forall delivery input -> received input = stream -> (length stream + length input + 1 <= n)%nat ->
  observed (fst (fst (framed_polls ps_decode PSIo n (framed_new PSHeader) (input ++ ending_io en)))) = out.
Proof.
  intros stream en.
  destruct (stream_total ps_decode ps_ok ps_w ps_incremental PSHeader stream I) as (ms & t & Hst).
  exists (expected PSIo ms t en). intros input n Hd HR Hn.
  eapply (polls_expected ps_decode PSIo ps_ok ps_w ps_incremental).
  - apply inv_new; auto; [exact I|]. rewrite HR. exact Hst.
  - assert (forall s b, ps_ok s -> FramedP.stream ps_decode s b ms t -> length ms <= length b + ps_w s)%nat as HL.
    { clear. intros s b Hok H. induction H as [| |s b m s' r ms t D H IH]; cbn; try lia.
      destruct (inc_msg _ _ _ ps_incremental _ _ _ _ _ Hok D) as (_ & Hok' & Hlt). specialize (IH Hok'). lia. }
    specialize (HL PSHeader stream I Hst). cbn in HL. lia.
Qed.

(*@example *)
Lemma C06_example_pf :
  let i1 := [IoData [x02; x00; x00]; IoPending; IoData [x00; x00; x01; x00; x00; x00; x00; x05; x05]] in
  let i2 := [IoData [x02; x00; x00; x00; x00; x01; x00; x00; x00; x00; x05; x05]] in
  Forall delivery i1 /\ Forall delivery i2 /\ received i1 = received i2 /\
  observed (fst (fst (framed_polls rr_decode RRIo 9 (framed_new RRHeader) (i1 ++ ending_io Eof)))) =
    [PItem (rr_new 1 x00 []); PFail (RRWireId x05)].
Proof. repeat split; repeat constructor. Qed.

Lemma big_payload : exists p : bytes, blen p = 2 ^ 32.
Proof.
  exists (repeat x00 (N.to_nat (2 ^ 32))). unfold blen. rewrite repeat_length. apply N2Nat.id.
Qed.

Lemma big_truncated p id c : blen p = 2 ^ 32 -> id < 2 ^ 32 ->
  exists m, rr_decode RRHeader (rr_encode (rr_new id c p)) = DMsg m RRHeader p /\ rr_payload m = [] /\ p <> [].
Proof.
  intros L Hid.
  exists {| rr_hdr := {| rrh_ctype := c; rrh_id := id; rrh_size := 0 |}; rr_payload := [] |}.
  split; [|split; [reflexivity|intros E; rewrite E in L; discriminate L]].
  unfold rr_encode, rr_new; cbn [rr_hdr rr_payload rrh_ctype rrh_id rrh_size]. unfold as_u32. rewrite L.
  rewrite N.mod_same by discriminate. change rr_wire_id with x02. cbn [rr_decode].
  rewrite rr_header_full by apply put_be_length.
  rewrite !get_put by (assumption || reflexivity).
  apply (rr_payload_full {| rrh_ctype := c; rrh_id := id; rrh_size := 0 |} [] p). reflexivity.
Qed.

(*@prop C07 (violated at 4 GiB): a message built from a payload of 2^32 bytes decodes to an empty payload,
    and the payload is then read as further frames. *)
Lemma C07_every_size_framed_refuted_pf :
  exists payload : bytes, forall (id : N) (c : byte), id < 2 ^ 32 ->
  exists m, rr_decode RRHeader (rr_encode (rr_new id c payload)) = DMsg m RRHeader payload /\
            rr_payload m = [] /\ payload <> [].
Proof.
  destruct big_payload as [p L]. exists p. intros id c Hid. apply big_truncated; assumption.
Qed.

(*@prop C07, exact law: the receiver obtains the first (length mod 2^32) bytes; the rest of the payload is left
    in the stream and taken for the next frame. In particular sizes below 2^32 are framed correctly. *)
Lemma C07_every_size_framed_partial_pf :
  forall (id : N) (c : byte) (payload more : bytes), id < 2 ^ 32 ->
  let k := N.to_nat (blen payload mod 2 ^ 32) in
  (exists m, rr_decode RRHeader (rr_encode (rr_new id c payload) ++ more) = DMsg m RRHeader (skipn k payload ++ more) /\
     rr_id m = id /\ rr_ctype m = c /\ rr_payload m = firstn k payload) /\
  (blen payload < 2 ^ 32 -> firstn k payload = payload /\ skipn k payload = []).
Proof.
  intros id c p more Hid k. split.
  - eexists. split; [|split; [|split]].
    + unfold rr_encode, rr_new; cbn [rr_hdr rr_payload rrh_ctype rrh_id rrh_size].
      replace ((rr_wire_id :: c :: put_be 4 id ++ put_be 4 (as_u32 (blen p)) ++ p) ++ more)
        with (x02 :: c :: put_be 4 id ++ put_be 4 (as_u32 (blen p)) ++ p ++ more)
        by (rewrite <- !app_comm_cons, <- !app_assoc; reflexivity).
      cbn [rr_decode]. rewrite rr_header_full by apply put_be_length.
      assert (Hm : as_u32 (blen p) < 2 ^ 32) by (apply N.mod_lt; lia).
      rewrite !get_put by assumption.
      rewrite <- (firstn_skipn k p) at 2. rewrite <- app_assoc.
      apply rr_payload_full. cbn [rrh_size]. unfold blen, k, as_u32. rewrite firstn_length.
      pose proof (N.mod_le (blen p) (2 ^ 32) ltac:(lia)). unfold blen in *. lia.
    + reflexivity.
    + reflexivity.
    + reflexivity.
  - intros H. assert (k = length p) as ->.
    { unfold k. rewrite N.mod_small by exact H. unfold blen. lia. }
    split; [apply firstn_all|apply skipn_all].
Qed.

(*@prop C07, publish/subscribe: the same law. *)
Lemma C07_pubsub_sizes_partial_pf :
  forall (now seq : N) (topic payload : bytes) (c : byte) (m : ps_msg) (more : bytes),
  now < 2 ^ 64 -> seq < 2 ^ 32 -> ps_new now seq topic payload c = Some m ->
  let k := N.to_nat (blen payload mod 2 ^ 32) in
  (exists m', ps_decode PSHeader (ps_encode m ++ more) = DMsg m' PSHeader (skipn k payload ++ more) /\
     ps_topic m' = topic /\ ps_ctype m' = c /\ ps_timestamp m' = now /\ ps_seq m' = seq /\
     ps_payload m' = firstn k payload) /\
  (blen payload < 2 ^ 32 -> firstn k payload = payload /\ skipn k payload = []).
Proof.
  intros now seq topic p c m more Hnow Hseq E k.
  unfold ps_new in E. destruct (N.ltb_spec (blen topic) (2 ^ 16)) as [Ht|]; [|discriminate].
  inversion E; subst; clear E. split.
  - eexists. split.
    + unfold ps_encode; cbn [ps_hdr ps_payload psh_ctype psh_topic_size psh_topic psh_timestamp psh_seq psh_size].
      rewrite put_be_2.
      set (b2 := byte_of (blen topic / 256)). set (b3 := byte_of (blen topic)).
      assert (G : get_be [b2; b3] = blen topic).
      { unfold b2, b3. rewrite <- put_be_2. apply get_put. exact Ht. }
      replace ((ps_wire_id :: c :: [b2; b3] ++ topic ++ put_be 8 now ++ put_be 4 seq ++ put_be 4 (as_u32 (blen p)) ++ p) ++ more)
        with (x03 :: c :: b2 :: b3 :: topic ++ put_be 8 now ++ put_be 4 seq ++ put_be 4 (as_u32 (blen p)) ++ p ++ more)
        by (rewrite <- !app_comm_cons, <- !app_assoc; reflexivity).
      cbn [ps_decode]. rewrite ps_header_full; try apply put_be_length; [|symmetry; exact G].
      assert (Hm : as_u32 (blen p) < 2 ^ 32) by (apply N.mod_lt; lia).
      unfold mk_hdr. rewrite G, !get_put by assumption.
      rewrite <- (firstn_skipn k p) at 2. rewrite <- app_assoc.
      apply ps_payload_full. cbn [psh_size]. unfold blen, k, as_u32. rewrite firstn_length.
      pose proof (N.mod_le (blen p) (2 ^ 32) ltac:(lia)). unfold blen in *. lia.
    + repeat split; reflexivity.
  - intros H. assert (k = length p) as ->.
    { unfold k. rewrite N.mod_small by exact H. unfold blen. lia. }
    split; [apply firstn_all|apply skipn_all].
Qed.
