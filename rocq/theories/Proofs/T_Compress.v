(** Compression: C08, C09. *)
From Coq Require Import List NArith.
From Verif Require Import Model.Base Model.WireReqRep Model.WirePubSub Model.Compression Spec.CompressSpec.
Import ListNotations.
Open Scope N_scope.
(*HEADEND*)
From Coq Require Import ZArith ZifyBool ZifyNat ZifyN.
From Verif Require Import Proofs.BaseP Proofs.ReqRepP Proofs.PubSubP.

Lemma decompress_inverse D c p q : inverse_of D c -> cmp_fun c p = Some q ->
  try_decompress D (ctype_byte (cmp_type c)) q = Some p.
Proof.
  intros H E. specialize (H _ _ E). unfold try_decompress, ctype_byte.
  destruct (cmp_type c); cbn; congruence.
Qed.

(*@prop C08: which decompressor the receiver applies, for all 256 type bytes: 0 is the identity, 1..4 the four
    algorithms, everything else an error. *)
Lemma C08_decompressor_selected_by_header_pf :
  forall (D : decompressors) (b : byte) (data : bytes),
  match Byte.to_N b with
  | 0 => try_decompress D b data = Some data
  | 1 => try_decompress D b data = d_gzip D data
  | 2 => try_decompress D b data = d_zstd D data
  | 3 => try_decompress D b data = d_snappy D data
  | 4 => try_decompress D b data = d_lz4 D data
  | _ => try_decompress D b data = None
  end.
Proof. intros D b data. destruct b; reflexivity. Qed.

(*@prop C08, request path: whatever the compressor (none, failing, of any type), threshold and payload, a receiver
    whose algorithms invert the sender's obtains the original payload from the decoded frame. *)
Lemma C08_request_transparent_pf :
  forall (D : decompressors) (co : option compressor) (min id : N) (payload more : bytes),
  (forall c, co = Some c -> inverse_of D c) ->
  let w := req_into_wire id (req_outgoing min co payload) in
  id < 2 ^ 32 -> blen (rr_payload w) < 2 ^ 32 ->
  exists m, rr_decode RRHeader (rr_encode w ++ more) = DMsg m RRHeader more /\
            rr_id m = id /\ try_decompress D (rr_ctype m) (rr_payload m) = Some payload.
Proof.
  intros D co min id p more HD w Hid Hlen.
  exists w. split; [apply rr_decode_encode, rr_new_wf; assumption|]. split; [reflexivity|].
  unfold w, req_into_wire, req_outgoing, rr_ctype, rr_new; cbn [rr_hdr rrh_ctype rr_payload].
  destruct (min <? blen p); [|reflexivity]. destruct co as [c|]; [|reflexivity].
  unfold om_compress. cbn [om_payload om_new]. destruct (cmp_fun c p) as [q|] eqn:E; [|reflexivity].
  cbn. apply decompress_inverse; auto.
Qed.

(*@prop C08, respond(). *)
Lemma C08_response_transparent_pf :
  forall (D : decompressors) (co : option compressor) (min id : N) (payload more : bytes) (w : rr_msg),
  (forall c, co = Some c -> inverse_of D c) ->
  rep_outgoing min co id payload = Some w ->
  id < 2 ^ 32 -> blen (rr_payload w) < 2 ^ 32 ->
  exists m, rr_decode RRHeader (rr_encode w ++ more) = DMsg m RRHeader more /\
            rr_id m = id /\ try_decompress D (rr_ctype m) (rr_payload m) = Some payload.
Proof.
  intros D co min id p more w HD E Hid Hlen.
  assert (exists c q, w = rr_new id c q /\ try_decompress D c q = Some p) as (c & q & -> & HDc).
  { unfold rep_outgoing in E. destruct co as [c|].
    - destruct (cmp_fun c p) as [q|] eqn:Eq; [|discriminate]. inversion E; subst.
      do 2 eexists; split; [reflexivity|]. apply decompress_inverse; auto.
    - inversion E; subst. do 2 eexists; split; reflexivity. }
  exists (rr_new id c q). split; [apply rr_decode_encode, rr_new_wf; assumption|]. split; [reflexivity|exact HDc].
Qed.

(*@prop C08, publish() and try_publish(). *)
Lemma C08_publish_transparent_pf :
  forall (D : decompressors) (co : option compressor) (min now seq : N) (topic payload more : bytes)
         (o : omsg) (w : ps_msg),
  (forall c, co = Some c -> inverse_of D c) ->
  publish_outgoing min co payload = Some o \/ try_publish_outgoing min co payload = Some o ->
  pub_into_wire now seq topic o = Some w ->
  now < 2 ^ 64 -> seq < 2 ^ 32 -> blen (ps_payload w) < 2 ^ 32 ->
  exists m, ps_decode PSHeader (ps_encode w ++ more) = DMsg m PSHeader more /\
            ps_topic m = topic /\ ps_seq m = seq /\ try_decompress D (ps_ctype m) (ps_payload m) = Some payload.
Proof.
  intros D co min now seq topic p more o w HD Ho Ew Hnow Hseq Hlen.
  assert (HDc : try_decompress D (ctype_byte (om_ctype o)) (om_payload o) = Some p).
  { assert (X : (exists c, co = Some c /\ om_compress c (om_new p) = Some o) \/ o = om_new p).
    { destruct Ho as [Ho|Ho]; unfold publish_outgoing, try_publish_outgoing in Ho;
      try destruct (min <? blen p); destruct co as [c|]; eauto; inversion Ho; auto. }
    destruct X as [(c & -> & X)| ->]; [|reflexivity].
    unfold om_compress in X. cbn [om_payload om_new] in X. destruct (cmp_fun c p) as [q|] eqn:Eq; [|discriminate].
    inversion X; subst. cbn [om_ctype om_payload]. apply decompress_inverse; auto. }
  unfold pub_into_wire in Ew.
  assert (HW : ps_topic w = topic /\ ps_seq w = seq /\ ps_ctype w = ctype_byte (om_ctype o) /\ ps_payload w = om_payload o).
  { unfold ps_new in Ew. destruct (blen topic <? 2 ^ 16); inversion Ew; subst. repeat split. }
  destruct HW as (H1 & H2 & H3 & H4).
  exists w. split.
  - apply ps_decode_encode. eapply ps_new_wf; eauto. rewrite <- H4. exact Hlen.
  - repeat split; auto. rewrite H3, H4. exact HDc.
Qed.

Definition rot13ish : compressor := {| cmp_type := CLz4; cmp_fun := fun p => Some (x7f :: p) |}.

(*@example *)
Lemma C08_example_pf :
  let D := {| d_gzip := fun _ => None; d_zstd := fun _ => None; d_snappy := fun _ => None;
              d_lz4 := fun q => match q with x7f :: p => Some p | _ => None end |} in
  let c := {| cmp_type := CLz4; cmp_fun := fun p => Some (x7f :: p) |} in
  inverse_of D c /\ req_outgoing 1 (Some c) [x41; x42] = {| om_ctype := CLz4; om_payload := [x7f; x41; x42] |} /\
  publish_outgoing 1 (Some c) [x41; x42] = Some {| om_ctype := CLz4; om_payload := [x7f; x41; x42] |}.
Proof.
  cbv zeta. split; [|split; reflexivity]. intros p q E. inversion E; subst. reflexivity.
Qed.

(*@prop C09 (violated): respond() and try_publish() compress payloads below the threshold; request() and publish()
    do not compress a payload of exactly the threshold. *)
Lemma C09_threshold_refuted_pf :
  let c := {| cmp_type := CGzip; cmp_fun := fun p => Some (x7f :: p) |} in
  (exists min payload w, blen payload < min /\ rep_outgoing min (Some c) 0 payload = Some w /\ rr_ctype w <> x00) /\
  (exists min payload o, blen payload < min /\ try_publish_outgoing min (Some c) payload = Some o /\ om_ctype o <> CNone) /\
  (exists min payload, min <= blen payload /\ om_ctype (req_outgoing min (Some c) payload) = CNone) /\
  (exists min payload o, min <= blen payload /\ publish_outgoing min (Some c) payload = Some o /\ om_ctype o = CNone).
Proof.
  cbv zeta. split; [|split; [|split]].
  - exists 8, [x41]. eexists. split; [reflexivity|]. split; [reflexivity|]. discriminate.
  - exists 8, [x41]. eexists. split; [reflexivity|]. split; [reflexivity|]. discriminate.
  - exists 1, [x41]. split; [discriminate|reflexivity].
  - exists 1, [x41]. eexists. split; [discriminate|]. split; reflexivity.
Qed.

(*@prop C09, what holds: request() and publish() leave payloads up to and including the threshold unchanged with
    type 0 and compress larger ones; without a compressor nothing is ever changed. (A failing compressor makes
    publish() return the error, while request() sends the payload uncompressed.) Missing: respond(),
    try_publish() and the payload of exactly the threshold size. *)
Lemma C09_threshold_partial_pf :
  forall (min id : N) (payload : bytes) (c : compressor),
  (blen payload <= min ->
     req_outgoing min (Some c) payload = {| om_ctype := CNone; om_payload := payload |} /\
     publish_outgoing min (Some c) payload = Some {| om_ctype := CNone; om_payload := payload |}) /\
  (min < blen payload ->
     match cmp_fun c payload with
     | Some q => req_outgoing min (Some c) payload = {| om_ctype := cmp_type c; om_payload := q |} /\
                 publish_outgoing min (Some c) payload = Some {| om_ctype := cmp_type c; om_payload := q |}
     | None => req_outgoing min (Some c) payload = {| om_ctype := CNone; om_payload := payload |} /\
               publish_outgoing min (Some c) payload = None
     end) /\
  req_outgoing min None payload = {| om_ctype := CNone; om_payload := payload |} /\
  publish_outgoing min None payload = Some {| om_ctype := CNone; om_payload := payload |} /\
  try_publish_outgoing min None payload = Some {| om_ctype := CNone; om_payload := payload |} /\
  (exists w, rep_outgoing min None id payload = Some w /\ rr_ctype w = x00 /\ rr_payload w = payload).
Proof.
  intros min id p c. unfold req_outgoing, publish_outgoing, om_compress, om_new; cbn [om_payload].
  split; [|split; [|split; [|split; [|split]]]].
  - intros H. destruct (N.ltb_spec min (blen p)); [lia|]. auto.
  - intros H. destruct (N.ltb_spec min (blen p)); [|lia]. destruct (cmp_fun c p); auto.
  - destruct (min <? blen p); reflexivity.
  - destruct (min <? blen p); reflexivity.
  - reflexivity.
  - eexists; split; [reflexivity|]. split; reflexivity.
Qed.

(*@prop C09, exact law of the two paths that ignore the threshold: with a compressor they always compress. *)
Lemma C09_threshold_ignored_partial_pf :
  forall (min id : N) (payload q : bytes) (c : compressor), cmp_fun c payload = Some q ->
  try_publish_outgoing min (Some c) payload = Some {| om_ctype := cmp_type c; om_payload := q |} /\
  exists w, rep_outgoing min (Some c) id payload = Some w /\ rr_id w = id /\
            rr_ctype w = ctype_byte (cmp_type c) /\ rr_payload w = q.
Proof.
  intros min id p q c E. unfold try_publish_outgoing, rep_outgoing, om_compress, om_new; cbn [om_payload].
  rewrite E. split; [reflexivity|]. eexists; split; [reflexivity|]. repeat split.
Qed.
