(** Properties of the write half of connections: C72-C75. *)
From Coq Require Import List NArith.
From Verif Require Import Model.Base Model.Framed Model.FramedWrite Model.WireReqRep Model.WirePubSub Model.Compression
  Model.Backoff Model.Trie Model.ReqDriver Model.RepDriver Model.PubDriver Model.SubDriver Model.Writers
  Spec.Stream Spec.WriteSpec.
Import ListNotations.
Open Scope N_scope.
(*HEADEND*)
From Coq Require Import ZArith ZifyBool ZifyNat ZifyN.
From Verif Require Import Model.Map Model.Utf8 Model.Stats Proofs.BaseP Proofs.FramedP Proofs.FramedP2 Proofs.ReqRepP Proofs.PubSubP Proofs.T_Wire
  Proofs.FramedWriteP Proofs.WritersP Proofs.WritersP2 Proofs.WritersP3.

(*@prop C72. However the owner of a connection mixes poll_ready, start_send, poll_flush and poll_close, and whatever the transport
    answers to the writes (a few bytes, not ready, errors): what it has taken, followed by what is still buffered, is exactly the
    encodings of the messages given to the connection, in order. *)
Lemma C72_partial_writes_lose_nothing_pf :
  forall (M : Type) (encode : M -> bytes) (boundary : N) (ops : list (wop M)) (w : fw) (rs : list wres),
  fw_run encode boundary fw_new ops = (w, rs) ->
  fw_out w ++ fw_buf w = concat (map encode (messages_sent ops)).
Proof. intros M encode bd ops w rs H. apply run_total in H as [T _]. exact T. Qed.

(*@prop C72. A flush (or close) that reports success has put everything given to the connection so far on the wire. *)
Lemma C72_flush_ok_means_written_pf :
  forall (M : Type) (encode : M -> bytes) (boundary : N) (ops : list (wop M)) (op : wop M) (w : fw) (rs : list wres),
  fw_run encode boundary fw_new (ops ++ [op]) = (w, rs ++ [WReady]) -> flushes op ->
  fw_out w = concat (map encode (messages_sent ops)).
Proof.
  intros M encode bd ops op w rs H F. pose proof (run_last _ _ _ _ _ _ _ H F) as B. apply run_total in H as [T _]. unfold total in T. rewrite B, app_nil_r in T.
  rewrite T. cbn. unfold messages_sent. rewrite flat_map_app. destruct F as (a & [-> | ->]); cbn; rewrite app_nil_r; reflexivity.
Qed.

Lemma reader_prefix {S M E} (decode : S -> bytes -> dres S M E) io_err ok wt (INC : incremental decode ok wt) s0 ms all input n :
  ok s0 -> decode s0 [] = DNone s0 [] -> Forall delivery input -> stream decode s0 all ms (TMore s0 []) -> prefix_of (received input) all ->
  let rs := fst (fst (framed_polls decode io_err n (framed_new s0) input)) in
  prefix_of (observed rs) (map PItem ms) /\
  (received input = all -> (length ms + length input + 1 <= n)%nat -> observed rs = map PItem ms).
Proof.
  intros O0 D0 Hd St [rest HR]. destruct (stream_total decode ok wt INC s0 (received input) O0) as (ms' & t & St').
  rewrite HR in St. destruct (stream_prefix decode ok wt INC (received input) s0 rest ms s0 [] ms' t O0 St St') as ([q Q] & s2 & r2 & ->).
  pose proof (inv_new decode ok s0 input ms' _ O0 D0 Hd St') as HI.
  pose proof (polls_expected decode io_err ok wt INC n _ _ _ _ StillOpen HI) as [P1 P2]. cbn [ending_io] in *. rewrite app_nil_r in *.
  unfold expected in *. rewrite app_nil_r in *. split.
  - destruct P1 as [x P1]. exists (x ++ map PItem q). rewrite app_assoc, <- P1, Q, map_app. reflexivity.
  - intros EQ Hn. subst all. rewrite <- EQ in St. destruct (stream_det decode s0 (received input) _ _ _ _ St' St) as [<- _]. apply P2. exact Hn.
Qed.

(*@prop C72, end to end, request/reply. Messages with ids below 2^32 and payloads below 4 GiB go through a connection whose writes are
    partial, delayed or failing at any point, and whose reads are cut anywhere: the reader sees a prefix of the messages given to the
    connection, and after a successful flush all of them once everything has been read. *)
Lemma C72_reqrep_end_to_end_pf :
  forall (boundary : N) (ops : list (wop rr_msg)) (w : fw) (rs : list wres) (input : list io) (n : nat),
  (forall m, In m (messages_sent ops) -> exists id c p, id < 2 ^ 32 /\ blen p < 2 ^ 32 /\ m = rr_new id c p) ->
  fw_run rr_encode boundary fw_new ops = (w, rs) ->
  Forall delivery input -> prefix_of (received input) (fw_out w) ->
  let seen := observed (fst (fst (framed_polls rr_decode RRIo n (framed_new RRHeader) input))) in
  prefix_of seen (map PItem (messages_sent ops)) /\
  (forall ops0 op rs0, ops = ops0 ++ [op] -> rs = rs0 ++ [WReady] -> flushes op -> received input = fw_out w ->
   (length (messages_sent ops) + length input + 1 <= n)%nat -> seen = map PItem (messages_sent ops)).
Proof.
  intros bd ops w rs input n WF R Hd Hp seen.
  pose proof (run_total _ _ _ _ _ _ R) as [T _]. unfold total in T. cbn [fw_new fw_out fw_buf app] in T.
  assert (St : stream rr_decode RRHeader (fw_out w ++ fw_buf w) (messages_sent ops) (TMore RRHeader [])).
  { rewrite T. rewrite <- (app_nil_r (concat _)). rewrite <- (app_nil_r (messages_sent ops)) at 2. apply rr_stream_app; [|apply st_more; reflexivity].
    apply Forall_forall. intros m I. destruct (WF m I) as (id & c & p & A & B & ->). apply rr_new_wf; assumption. }
  assert (Hp2 : prefix_of (received input) (fw_out w ++ fw_buf w)).
  { destruct Hp as [x Hp]. exists (x ++ fw_buf w). rewrite Hp, app_assoc. reflexivity. }
  destruct (reader_prefix rr_decode RRIo (fun _ => True) rr_w rr_incremental RRHeader _ _ input n I eq_refl Hd St Hp2) as [P1 P2].
  split; [exact P1|]. intros ops0 op rs0 -> -> F EQ Hn. apply P2; [|exact Hn]. rewrite (run_last _ _ _ _ _ _ _ R F), app_nil_r. exact EQ.
Qed.

(*@prop C72, end to end, publish/subscribe. *)
Lemma C72_pubsub_end_to_end_pf :
  forall (boundary : N) (ops : list (wop ps_msg)) (w : fw) (rs : list wres) (input : list io) (n : nat),
  (forall m, In m (messages_sent ops) -> exists now seq topic payload c,
     now < 2 ^ 64 /\ seq < 2 ^ 32 /\ blen payload < 2 ^ 32 /\ ps_new now seq topic payload c = Some m) ->
  fw_run ps_encode boundary fw_new ops = (w, rs) ->
  Forall delivery input -> prefix_of (received input) (fw_out w) ->
  let seen := observed (fst (fst (framed_polls ps_decode PSIo n (framed_new PSHeader) input))) in
  prefix_of seen (map PItem (messages_sent ops)) /\
  (forall ops0 op rs0, ops = ops0 ++ [op] -> rs = rs0 ++ [WReady] -> flushes op -> received input = fw_out w ->
   (length (messages_sent ops) + length input + 1 <= n)%nat -> seen = map PItem (messages_sent ops)).
Proof.
  intros bd ops w rs input n WF R Hd Hp seen.
  pose proof (run_total _ _ _ _ _ _ R) as [T _]. unfold total in T. cbn [fw_new fw_out fw_buf app] in T.
  assert (St : stream ps_decode PSHeader (fw_out w ++ fw_buf w) (messages_sent ops) (TMore PSHeader [])).
  { rewrite T. rewrite <- (app_nil_r (concat _)). rewrite <- (app_nil_r (messages_sent ops)) at 2. apply ps_stream_app; [|apply st_more; reflexivity].
    apply Forall_forall. intros m J. destruct (WF m J) as (now & seq & topic & p & c & A & B & C & E). eapply ps_new_wf; eassumption. }
  assert (Hp2 : prefix_of (received input) (fw_out w ++ fw_buf w)).
  { destruct Hp as [x Hp]. exists (x ++ fw_buf w). rewrite Hp, app_assoc. reflexivity. }
  destruct (reader_prefix ps_decode PSIo ps_ok ps_w ps_incremental PSHeader _ _ input n I eq_refl Hd St Hp2) as [P1 P2].
  split; [exact P1|]. intros ops0 op rs0 -> -> F EQ Hn. apply P2; [|exact Hn]. rewrite (run_last _ _ _ _ _ _ _ R F), app_nil_r. exact EQ.
Qed.

(*@prop C72, the sockets. In every history of a request socket, what the transport took on the current connection, followed by what is
    buffered, is exactly the frames handed to that connection; and the history is one of the request driver, so everything
    proved about that driver (C10-C21, C60-C62, C64) holds of it. *)
Lemma C72_request_socket_pf :
  forall (o : ropts) (co : option compressor) (D : decompressors) (boundary : N) (evs : list rw_event) (s : rd) (w : fw) (os : list out),
  rw_run o co D boundary rd_init fw_new evs = (s, w, os) ->
  fw_out w ++ fw_buf w = concat (map rr_encode (on_connection [] os)) /\
  exists devs : list req_event, length devs = length evs /\ rd_run o co D rd_init devs = (s, os).
Proof.
  intros o co D bd evs s w os H. apply rw_run_spec in H as ((devs & F & R) & T & _). split; [apply (T []); reflexivity|].
  exists devs. split; [|exact R]. clear - F. induction F; cbn; congruence.
Qed.

(*@prop C72, the sockets. Replies, published messages and subscription commands. *)
Lemma C72_other_sockets_pf :
  (forall (min : N) (co : option compressor) (cid : N) (l : list pw_input) (p : peer) (w : fw) (os : list rout) (r : option pres),
    pw_run min co (new_peer cid) fw_new l = (p, w, os, r) ->
    fw_out w ++ fw_buf w = concat (map rr_encode (rep_frames os))) /\
  (forall (buf boundary cid tail : N) (l : list sw_input) (s : sess) (w : fw) (os : list qout) (r : option sres),
    sw_run buf boundary cid (sess_new tail) fw_new l = (s, w, os, r) ->
    fw_out w ++ fw_buf w = concat (map ps_encode (pub_frames os))) /\
  (forall (cid : N) (a : addr) (l : list yw_event) (x : sconn) (w : fw) (os : list uout),
    yw_run cid (sc_new a) fw_new l = (x, w, os) ->
    fw_out w ++ fw_buf w = concat (map ps_encode (sub_frames os))).
Proof.
  split; [|split].
  - intros min co cid l p w os r H. apply pw_run_spec in H as (T & _). apply (T []). reflexivity.
  - intros buf bd cid tail l s w os r H. apply sw_run_spec in H as (T & _). apply (T []). reflexivity.
  - intros cid a l x w os H. apply (yw_run_spec cid 0) in H as (T & _). apply (T []). reflexivity.
Qed.

(*@example *)
Lemma C72_example_pf :
  let ops := [WoReady []; WoSend (rr_new 1 x00 [x41]); WoFlush [WrOk 3; WrPending]; WoReady [WrOk 2; WrErr]; WoSend (rr_new 2 x00 []); WoFlush [WrOk 5; WrOk 100; WrOk 0]] in
  exists w, fw_run rr_encode 4 fw_new ops = (w, [WReady; WReady; WPending; WFail; WReady; WReady]) /\ fw_buf w = [] /\ length (fw_out w) = 21%nat.
Proof. eexists. split; [vm_compute; reflexivity|]. split; reflexivity. Qed.

(*@prop C73. As long as the transport reports no write error, a request socket buffers at most the back-pressure boundary (minus one byte)
    plus one frame, in every history and for every boundary. *)
Lemma C73_request_buffer_partial_pf :
  forall (o : ropts) (co : option compressor) (D : decompressors) (boundary : N) (evs : list rw_event) (s : rd) (w : fw) (os : list out) (big : N),
  rw_run o co D boundary rd_init fw_new evs = (s, w, os) ->
  (forall e a, In (RwIter e a) evs -> no_write_error a) ->
  (forall m, In (Handed m true) os -> blen (rr_encode m) <= big) ->
  blen (fw_buf w) <= (boundary - 1) + big.
Proof. intros o co D bd evs s w os big H NE BIG. apply rw_run_spec in H as (_ & _ & _ & B). apply B; auto. cbn. lia. Qed.

(*@prop C73, reply socket and publisher: the same. *)
Lemma C73_reply_publisher_buffer_partial_pf :
  (forall (min : N) (co : option compressor) (cid : N) (l : list pw_input) (p : peer) (w : fw) (os : list rout) (r : option pres) (big : N),
    pw_run min co (new_peer cid) fw_new l = (p, w, os, r) ->
    (forall i, In i l -> no_write_error (pi_wans i)) -> (forall m, In m (rep_frames os) -> blen (rr_encode m) <= big) ->
    blen (fw_buf w) <= (default_boundary - 1) + big) /\
  (forall (buf boundary cid tail : N) (l : list sw_input) (s : sess) (w : fw) (os : list qout) (r : option sres) (big : N),
    sw_run buf boundary cid (sess_new tail) fw_new l = (s, w, os, r) ->
    (forall i, In i l -> no_write_error (si_wans i)) -> (forall m, In m (pub_frames os) -> blen (ps_encode m) <= big) ->
    blen (fw_buf w) <= (boundary - 1) + big).
Proof.
  split.
  - intros min co cid l p w os r big H NE BIG. apply pw_run_spec in H as (_ & _ & B). apply B; auto. cbn. lia.
  - intros buf bd cid tail l s w os r big H NE BIG. apply sw_run_spec in H as (_ & _ & B). apply B; auto. cbn. lia.
Qed.

(*@prop C73, subscriber: whatever the transport answers. *)
Lemma C73_subscriber_buffer_pf :
  forall (cid : N) (a : addr) (l : list yw_event) (x : sconn) (w : fw) (os : list uout) (big : N),
  yw_run cid (sc_new a) fw_new l = (x, w, os) ->
  (forall c now m, In (YwCmd c) l -> cmd_frame now c = Some m -> blen (ps_encode m) <= big) ->
  blen (fw_buf w) <= (default_boundary - 1) + big.
Proof.
  intros cid a l x w os big H BIG. apply (yw_run_spec cid big) in H as (_ & B). apply B.
  - intros c I now m E. eapply BIG; eassumption.
  - intros m [].
  - intros c [].
  - cbn. lia.
Qed.

Lemma wx_fail_all : all_writes_fail wx_fail.
Proof. intros x I. cbn in I. repeat destruct I as [<- | I]; try contradiction; left; reflexivity. Qed.
Lemma in_rounds {A} (x : A) (r : list A) n : In x (concat (repeat r n)) -> In x r.
Proof. rewrite in_concat. intros (l & I & J). apply repeat_spec in I. subst. exact J. Qed.
Lemma request_stuck (o : ropts) (D : decompressors) (bd : N) (n : nat) :
  exists evs s w os, rw_run o None D bd rd_init fw_new evs = (s, w, os) /\
  (forall e a, In (RwIter e a) evs -> all_writes_fail a) /\ rd_conn s = RActive /\ rd_done s = false /\
  (forall m, In (Handed m true) os -> blen (rr_encode m) = 10) /\ (length (fw_buf w) = 10 * n)%nat /\ fw_out w = [] /\
  (exists o1 o2, os = o1 ++ Connected :: o2 /\ ~ In Connected o1 /\ ~ In Connected o2) /\ (n <= length evs)%nat.
Proof.
  destruct (start_fail o D bd) as (s0 & os0 & R0 & I0 & C0 & H0). destruct (rounds_fail o D bd n s0 fw_new I0) as (s1 & b & os1 & R1 & I1 & L1 & C1 & H1).
  exists (wx_start ++ concat (repeat wx_round n)), s1, (mkFw b []), ((os0 ++ [Connected]) ++ os1). split; [rewrite rw_run_app, R0, R1; reflexivity|].
  split. { intros e a I. apply in_app_or in I as [I|I]; [|apply in_rounds in I]; cbn in I; repeat (destruct I as [I|I]; [inversion I; subst; try exact wx_fail_all|]); contradiction. }
  destruct I1 as (_ & _ & _ & A & _ & B). split; [exact A|]. split; [exact B|]. split.
  { intros m I. rewrite !in_app_iff in I. destruct I as [[I|[I|[]]]|I]; [destruct (H0 _ I)|discriminate|apply H1 in I; unfold blen; lia]. }
  split; [exact L1|]. split; [reflexivity|]. split; [exists os0, os1; rewrite <- app_assoc; auto|].
  rewrite app_length. assert (X : forall k, length (concat (repeat wx_round k)) = (3 * k)%nat) by (induction k as [|k IHk]; [reflexivity|cbn [repeat concat]; rewrite app_length, IHk; cbn [length wx_round]; lia]). rewrite X. lia.
Qed.
Lemma px_in n : forall k i, In i (px_rounds n k) -> pi_wans i = wx_fail.
Proof. induction n as [|n IH]; intros k i; cbn [px_rounds]; [intros []|]. rewrite in_app_iff. intros [I|I]; [|eapply IH; exact I]. cbn in I. repeat destruct I as [<- | I]; reflexivity || contradiction. Qed.
Lemma sx_in n : forall k i, In i (sx_rounds n k) -> si_wans i = wx_fail.
Proof. induction n as [|n IH]; intros k i; cbn [sx_rounds]; [intros []|]. rewrite in_app_iff. intros [I|I]; [|eapply IH; exact I]. cbn in I. repeat destruct I as [<- | I]; reflexivity || contradiction. Qed.
Lemma px_len n : forall k, length (px_rounds n k) = (3 * n)%nat.
Proof. induction n as [|n IH]; intros k; cbn [px_rounds]; [reflexivity|]. rewrite app_length, IH. cbn [length px_round]. lia. Qed.
Lemma sx_len n : forall k, length (sx_rounds n k) = (2 * n)%nat.
Proof. induction n as [|n IH]; intros k; cbn [sx_rounds]; [reflexivity|]. rewrite app_length, IH. cbn [length sx_round]. lia. Qed.
Lemma reply_stuck (min cid : N) (n : nat) :
  exists l p w os r, pw_run min None (new_peer cid) fw_new l = (p, w, os, r) /\ (forall i, In i l -> all_writes_fail (pi_wans i)) /\ r <> Some PNone /\
  (forall m, In m (rep_frames os) -> blen (rr_encode m) = 10) /\ (length (fw_buf w) = 10 * n)%nat /\ fw_out w = [] /\ (n <= length l)%nat.
Proof.
  destruct (prounds_fail min n 0 (new_peer cid) fw_new (conj eq_refl eq_refl)) as (p & b & os & r & R & I & L & C & H).
  exists (px_rounds n 0), p, (mkFw b []), os, r. split; [exact R|]. split; [intros i J; rewrite (px_in _ _ _ J); exact wx_fail_all|]. split; [destruct C as [-> | ->]; discriminate|].
  split; [intros m J; apply H in J; subst; reflexivity|]. split; [exact L|]. split; [reflexivity|]. rewrite px_len. lia.
Qed.
Lemma publisher_stuck (buf bd cid : N) (n : nat) : 0 < buf ->
  exists l s w os r, sw_run buf bd cid (sess_new 0) fw_new l = (s, w, os, r) /\ (forall i, In i l -> all_writes_fail (si_wans i)) /\ r <> Some SDone /\ r <> Some SCrash /\
  (forall m, In m (pub_frames os) -> blen (ps_encode m) = 21) /\ (length (fw_buf w) = 21 * n)%nat /\ fw_out w = [] /\ (n <= length l)%nat.
Proof.
  intros B. destruct (sstart_fail buf bd cid B) as (s0 & os0 & R0 & I0 & F0). destruct (srounds_fail buf bd cid B n 0%nat s0 fw_new I0) as (s & b & os & r & R & I & L & C & H).
  exists (sx_start ++ sx_rounds n 0), s, (mkFw b []), (os0 ++ os), (Some SCont). rewrite (sw_run_app _ _ _ _ _ _ _ _ _ _ R0), R. split; [destruct C as [-> | ->]; reflexivity|].
  split. { intros i J. apply in_app_or in J as [[<- | []]|J]; [|rewrite (sx_in _ _ _ J)]; exact wx_fail_all. }
  split; [discriminate|]. split; [discriminate|]. split; [intros m; rewrite pub_frames_app, F0; apply H|]. split; [exact L|]. split; [reflexivity|]. rewrite app_length, sx_len. lia.
Qed.

(*@prop C73. Refuted when writes fail: poll_ready's error counts as ready (driver.rs 341-347, rep/driver.rs 269-272, session.rs 153-158),
    so with a connection whose every write fails the buffers of the request socket, the reply socket and the publisher grow without
    bound, by frames of 10 or 21 bytes, whatever the boundary. *)
Lemma C73_buffers_refuted_pf :
  (forall (o : ropts) (D : decompressors) (boundary n : N), exists evs s w os,
    rw_run o None D boundary rd_init fw_new evs = (s, w, os) /\
    (forall e a, In (RwIter e a) evs -> all_writes_fail a) /\
    (forall m, In (Handed m true) os -> blen (rr_encode m) = 10) /\ n <= blen (fw_buf w)) /\
  (forall (min cid n : N), exists l p w os r,
    pw_run min None (new_peer cid) fw_new l = (p, w, os, r) /\
    (forall i, In i l -> all_writes_fail (pi_wans i)) /\
    (forall m, In m (rep_frames os) -> blen (rr_encode m) = 10) /\ n <= blen (fw_buf w)) /\
  (forall (buf boundary cid n : N), 0 < buf -> exists l s w os r,
    sw_run buf boundary cid (sess_new 0) fw_new l = (s, w, os, r) /\
    (forall i, In i l -> all_writes_fail (si_wans i)) /\
    (forall m, In m (pub_frames os) -> blen (ps_encode m) = 21) /\ n <= blen (fw_buf w)).
Proof.
  split; [|split].
  - intros o D bd n. destruct (request_stuck o D bd (N.to_nat n)) as (evs & s & w & os & R & A & _ & _ & B & L & _). exists evs, s, w, os. split; [exact R|]. split; [exact A|]. split; [exact B|]. unfold blen. lia.
  - intros min cid n. destruct (reply_stuck min cid (N.to_nat n)) as (l & p & w & os & r & R & A & _ & B & L & _). exists l, p, w, os, r. split; [exact R|]. split; [exact A|]. split; [exact B|]. unfold blen. lia.
  - intros buf bd cid n P. destruct (publisher_stuck buf bd cid (N.to_nat n) P) as (l & p & w & os & r & R & A & _ & _ & B & L & _). exists l, p, w, os, r. split; [exact R|]. split; [exact A|]. split; [exact B|]. unfold blen. lia.
Qed.

(*@prop C74. "A connection on which every write fails is given up." Refuted for all sockets but the subscriber: however many iterations
    pass and requests are made (or answered, or messages published), the socket keeps the connection, having connected once; not
    one byte was written. *)
Lemma C74_given_up_refuted_pf :
  (forall (o : ropts) (D : decompressors) (boundary : N) (n : nat), exists evs s w os,
    rw_run o None D boundary rd_init fw_new evs = (s, w, os) /\ (n <= length evs)%nat /\
    (forall e a, In (RwIter e a) evs -> all_writes_fail a) /\
    (n <= length (on_connection [] os))%nat /\ fw_out w = [] /\ rd_conn s = RActive /\ rd_done s = false /\
    (exists o1 o2, os = o1 ++ Connected :: o2 /\ ~ In Connected o1 /\ ~ In Connected o2)) /\
  (forall (min cid : N) (n : nat), exists l p w os r,
    pw_run min None (new_peer cid) fw_new l = (p, w, os, r) /\ (n <= length l)%nat /\
    (forall i, In i l -> all_writes_fail (pi_wans i)) /\
    (n <= length (rep_frames os))%nat /\ fw_out w = [] /\ r <> Some PNone) /\
  (forall (buf boundary cid : N) (n : nat), 0 < buf -> exists l s w os r,
    sw_run buf boundary cid (sess_new 0) fw_new l = (s, w, os, r) /\ (n <= length l)%nat /\
    (forall i, In i l -> all_writes_fail (si_wans i)) /\
    (n <= length (pub_frames os))%nat /\ fw_out w = [] /\ r <> Some SDone /\ r <> Some SCrash).
Proof.
  assert (X : forall {M} (e : M -> bytes) k n (l : list M), (forall m, In m l -> length (e m) = k) -> (0 < k)%nat -> length (concat (map e l)) = (k * n)%nat -> (n <= length l)%nat).
  { intros M e k n l H K. assert (Y : length (concat (map e l)) = (k * length l)%nat).
    { clear K. induction l as [|m l IH]; [cbn; lia|]. cbn [map concat length]. rewrite app_length, IH by (intros; apply H; right; assumption). rewrite (H m (or_introl eq_refl)). lia. }
    rewrite Y. nia. }
  split; [|split].
  - intros o D bd n. destruct (request_stuck o D bd n) as (evs & s & w & os & R & A & C & Dn & B & L & O & K & N). exists evs, s, w, os. split; [exact R|]. split; [exact N|]. split; [exact A|].
    split; [|split; [exact O|split; [exact C|split; [exact Dn|exact K]]]]. pose proof (rw_run_spec _ _ _ _ _ _ _ _ _ _ R) as (_ & T & _). specialize (T [] eq_refl). unfold total in T. rewrite O in T. cbn [app] in T.
    apply (X _ rr_encode 10%nat); [|lia|]. { intros m I. apply on_in in I as [[]|I]. apply B in I. unfold blen in I. lia. } unfold encs in T. rewrite <- T. exact L.
  - intros min cid n. destruct (reply_stuck min cid n) as (l & p & w & os & r & R & A & C & B & L & O & N). exists l, p, w, os, r. split; [exact R|]. split; [exact N|]. split; [exact A|].
    split; [|split; [exact O|exact C]]. pose proof (pw_run_spec _ _ _ _ _ _ _ _ _ R) as (T & _). specialize (T [] eq_refl). unfold total in T. rewrite O in T. cbn [app] in T.
    apply (X _ rr_encode 10%nat); [|lia|]. { intros m I. apply B in I. unfold blen in I. lia. } unfold encs in T. rewrite <- T. exact L.
  - intros buf bd cid n P. destruct (publisher_stuck buf bd cid n P) as (l & p & w & os & r & R & A & C & C2 & B & L & O & N). exists l, p, w, os, r. split; [exact R|]. split; [exact N|]. split; [exact A|].
    split; [|split; [exact O|split; [exact C|exact C2]]]. pose proof (sw_run_spec _ _ _ _ _ _ _ _ _ _ R) as (T & _). specialize (T [] eq_refl). unfold total in T. rewrite O in T. cbn [app] in T.
    apply (X _ ps_encode 21%nat); [|lia|]. { intros m I. apply B in I. unfold blen in I. lia. } unfold pencs in T. rewrite <- T. exact L.
Qed.

(*@prop C74, subscriber. Refuted: one failed flush of a subscription frame is taken for a success (stream.rs 67, `is_ready`). Whatever the
    transport answers from then on (even if it recovers) and whatever is received, the frame is never written and the session goes
    on: the publisher never learns of the subscription. *)
Lemma C74_subscriber_refuted_pf :
  forall (cid : N) (a : addr) (now : N) (topic : bytes) (frame : ps_msg) (later : list yw_event),
  ps_new_sub now topic = Some frame ->
  (forall ev, In ev later -> exists e fl se, ev = YwIter e fl se) ->
  let quiet := mkYenv false PnPending [] now in
  exists x os,
  yw_run cid (sc_new a) fw_new (YwCmd (SSub topic) :: YwIter quiet [] [] :: YwIter quiet [] [] :: YwIter quiet [WrErr] [] :: later)
    = (x, mkFw (ps_encode frame) [], os) /\
  sub_frames os = [frame] /\ sc_alive x = true.
Proof.
  intros cid a now t fr later E K quiet.
  assert (S1 : yw_iter cid quiet [] [] (fst (sc_try (SSub t) (sc_new a))) fw_new = (mkSc a [fr] false [] [] true true 0 avg0, fw_new, [UGot cid (SSub t)], SCont)).
  { unfold yw_iter, ss_iter. change (sc_cmds (fst (sc_try (SSub t) (sc_new a)))) with [SSub t]. cbn -[ps_new_sub ps_encode]. rewrite E. reflexivity. }
  assert (S2 : yw_iter cid quiet [] [] (mkSc a [fr] false [] [] true true 0 avg0) fw_new = (mkSc a [] true [] [] true true 0 avg0, mkFw (ps_encode fr) [], [UWire cid fr true], SCont)) by reflexivity.
  assert (S3 : yw_iter cid quiet [WrErr] [] (mkSc a [] true [] [] true true 0 avg0) (mkFw (ps_encode fr) []) = (mkSc a [] false [] [] true true 0 avg0, mkFw (ps_encode fr) [], [], SPend)).
  { unfold yw_iter. cbn [sc_flush]. rewrite flush_fail. reflexivity. }
  destruct (stuck_run cid later (mkSc a [] false [] [] true true 0 avg0) (mkFw (ps_encode fr) []) K eq_refl eq_refl eq_refl eq_refl eq_refl) as (x & o & R & A & F).
  exists x, ([UGot cid (SSub t)] ++ [UWire cid fr true] ++ [] ++ o). split.
  - cbn [yw_run]. change (sc_alive (fst (sc_try (SSub t) (sc_new a)))) with true. cbv iota. rewrite S1. cbn [sc_alive]. rewrite S2. cbn [sc_alive]. rewrite S3. rewrite R. reflexivity.
  - split; [rewrite !sub_frames_app, F; reflexivity|exact A].
Qed.

(*@prop C75. When a request socket's task goes to sleep with a connection, everything handed to that connection has been written to the
    transport, unless it is waiting for the flush interval or the transport did not complete the flush tried in this very iteration. *)
Lemma C75_request_flushed_before_sleep_pf :
  forall (o : ropts) (co : option compressor) (D : decompressors) (boundary : N) (evs : list rw_event) (s : rd) (w : fw) (os : list out)
         (e : env) (a : wans) (s' : rd) (w' : fw) (os' : list out),
  rw_run o co D boundary rd_init fw_new evs = (s, w, os) ->
  rw_iter o co D boundary e a s w = (s', w', os', CPending) -> rd_conn s' = RActive ->
  fw_out w' = concat (map rr_encode (on_connection [] (os ++ os'))) \/
  (ro_flush_interval o <> None /\ e_flush_tick e = false) \/ snd (fst (fw_flush w (wa_flush a))) <> WReady.
Proof.
  intros o co D bd evs s w os e a s' w' os' R It AC. apply rw_run_spec in R as (_ & T & C & _). specialize (T [] eq_refl). specialize (C (or_introl eq_refl)).
  apply rw_iter_spec in It as (e' & _ & _ & T2 & _ & P & _). specialize (T2 _ T). rewrite <- on_app in T2.
  destruct (P eq_refl) as [X|X]; [unfold is_active; rewrite AC; reflexivity|exact C| |right; exact X].
  left. unfold total in T2. rewrite X, app_nil_r in T2. exact T2.
Qed.

(*@prop C75, reply socket and publisher (for the publisher: unless it is waiting for its flush interval, [s_tick] = false). *)
Lemma C75_reply_publisher_flushed_before_sleep_pf :
  (forall (min : N) (co : option compressor) (cid : N) (l : list pw_input) (i : pw_input) (p : peer) (w : fw) (os : list rout) (p' : peer) (w' : fw) (os' : list rout) (r : option pres),
    pw_run min co (new_peer cid) fw_new l = (p, w, os, r) ->
    pw_iter min co (pi_env i) (pi_wans i) (pi_os i) (pi_rid i) p w = (p', w', os', PPend) ->
    fw_out w' = concat (map rr_encode (rep_frames (os ++ os'))) \/ snd (fst (fw_flush w (wa_flush (pi_wans i)))) <> WReady) /\
  (forall (buf boundary cid tail : N) (l : list sw_input) (i : sw_input) (s : sess) (w : fw) (os : list qout) (s' : sess) (w' : fw) (os' : list qout) (r : option sres),
    sw_run buf boundary cid (sess_new tail) fw_new l = (s, w, os, r) ->
    sw_iter buf boundary cid (si_env i) (si_wans i) (si_hist i) (si_closed i) s w = (s', w', os', SPend) ->
    fw_out w' = concat (map ps_encode (pub_frames (os ++ os'))) \/ s_tick (si_env i) = false \/ snd (fst (fw_flush w (wa_flush (si_wans i)))) <> WReady).
Proof.
  split.
  - intros min co cid l i p w os p' w' os' r R It. apply pw_run_spec in R as (T & C & _). specialize (T [] eq_refl). specialize (C (or_introl eq_refl)).
    apply pw_iter_spec in It as (T2 & _ & P & _). specialize (T2 _ T). cbn [app] in T2. rewrite <- rep_frames_app in T2. destruct (P eq_refl C) as [X|X]; [|right; exact X].
    left. unfold total in T2. rewrite X, app_nil_r in T2. exact T2.
  - intros buf bd cid tail l i p w os p' w' os' r R It. apply sw_run_spec in R as (T & C & _). specialize (T [] eq_refl). specialize (C (or_introl eq_refl)).
    apply sw_iter_spec in It as (T2 & _ & P & _). specialize (T2 _ T). cbn [app] in T2. rewrite <- pub_frames_app in T2. destruct (P eq_refl C) as [X|X]; [|right; exact X].
    left. unfold total in T2. rewrite X, app_nil_r in T2. exact T2.
Qed.

(*@prop C75, subscriber: only as long as no flush has failed (see C74). *)
Lemma C75_subscriber_flushed_before_sleep_partial_pf :
  forall (cid : N) (a : addr) (l : list yw_event) (x : sconn) (w : fw) (os : list uout) (e : yenv) (fl : list wr) (se : list (list wr)) (x' : sconn) (w' : fw) (os' : list uout),
  yw_run cid (sc_new a) fw_new l = (x, w, os) ->
  (forall e fl se b, In (YwIter e fl se) l -> In b fl -> ~ write_error b) ->
  yw_iter cid e fl se x w = (x', w', os', SPend) ->
  fw_out w' = concat (map ps_encode (sub_frames (os ++ os'))) \/ snd (fst (fw_flush w fl)) <> WReady.
Proof.
  intros cid a l x w os e fl se x' w' os' R NE It. pose proof (ycov_run _ _ _ _ _ _ _ R NE (or_introl eq_refl)) as C.
  apply (yw_run_spec cid 0) in R as (T & _). specialize (T [] eq_refl).
  apply yw_iter_spec in It as (T2 & _ & P & _). specialize (T2 _ T). cbn [app] in T2. rewrite <- sub_frames_app in T2. destruct (P eq_refl C) as [X|X]; [|right; exact X].
  left. unfold total in T2. rewrite X, app_nil_r in T2. exact T2.
Qed.

(*@example *)
Lemma C75_example_pf :
  let evs := [RwIter wx_idle wx_ok; RwIter wx_later wx_ok; RwIter wx_connected wx_ok; RwReq 1 [x41]; RwIter wx_idle wx_ok; RwIter wx_idle wx_ok] in
  exists s w os s' w',
  rw_run wx_opts None wx_dec 8192 rd_init fw_new evs = (s, w, os) /\ length (fw_buf w) = 11%nat /\
  rw_iter wx_opts None wx_dec 8192 wx_idle wx_ok s w = (s', w', [], CPending) /\ rd_conn s' = RActive /\
  length (fw_out w') = 11%nat.
Proof. eexists _, _, _, _, _. split; [vm_compute; reflexivity|]. split; [reflexivity|]. split; [vm_compute; reflexivity|]. split; reflexivity. Qed.
