From Coq Require Import ZArith ZifyBool ZifyNat ZifyN.
From Verif Require Import Model.Base Model.Framed Model.WirePubSub Spec.Wire Spec.Stream
  Proofs.BaseP Proofs.FramedP Proofs.FramedP2.
From Verif Require Import Proofs.ReqRepP.
Local Open Scope N_scope.

Lemma ps_header_foreign x b : x <> x03 -> ps_decode_header (x :: b) = DErr (PSWireId x) PSHeader (x :: b).
Proof.
  intros H. unfold ps_decode_header. cbn [index nth_error].
  unfold ps_wire_id. destruct (byte_eqb_spec x x03); [contradiction|]. reflexivity.
Qed.

Definition ps_need (b2 b3 : byte) : N := 4 + get_be [b2; b3] + 8 + 8.

Lemma ps_header_short4 b : blen (x03 :: b) < 4 -> ps_decode_header (x03 :: b) = DNone PSHeader (x03 :: b).
Proof.
  intros H. unfold ps_decode_header. cbn [index nth_error].
  replace (Byte.eqb x03 ps_wire_id) with true by reflexivity. cbn [negb].
  destruct (N.ltb_spec (blen (x03 :: b)) (1 + 1)); [reflexivity|].
  destruct b as [|c b]; [cbn in *; lia|]. cbn [nth_error].
  rewrite ltb_true by lia. reflexivity.
Qed.

Lemma ps_header_short c b2 b3 b : blen (x03 :: c :: b2 :: b3 :: b) < ps_need b2 b3 ->
  ps_decode_header (x03 :: c :: b2 :: b3 :: b) = DNone PSHeader (x03 :: c :: b2 :: b3 :: b).
Proof.
  intros H. unfold ps_decode_header. cbn [index nth_error].
  replace (Byte.eqb x03 ps_wire_id) with true by reflexivity. cbn [negb].
  assert (4 <= blen (x03 :: c :: b2 :: b3 :: b)) by (rewrite !blen_cons; lia).
  rewrite (ltb_false _ (1 + 1)) by lia. rewrite (ltb_false _ (2 + 2)) by lia.
  unfold ps_need in H. cbv zeta. rewrite ltb_true by exact H. reflexivity.
Qed.

Definition mk_hdr (c b2 b3 : byte) (topic tsb seqb szb : bytes) : ps_header :=
  {| psh_ctype := c; psh_topic_size := get_be [b2; b3]; psh_topic := topic;
     psh_timestamp := get_be tsb; psh_seq := get_be seqb; psh_size := get_be szb |}.

Lemma ps_header_full c b2 b3 topic tsb seqb szb r :
  blen topic = get_be [b2; b3] -> length tsb = 8%nat -> length seqb = 4%nat -> length szb = 4%nat ->
  ps_decode_header (x03 :: c :: b2 :: b3 :: topic ++ tsb ++ seqb ++ szb ++ r) =
  ps_decode_payload (Some (mk_hdr c b2 b3 topic tsb seqb szb)) r.
Proof.
  intros Ht H8 H4 Hs. unfold ps_decode_header. cbn [index nth_error].
  replace (Byte.eqb x03 ps_wire_id) with true by reflexivity. cbn [negb].
  assert (L : blen (x03 :: c :: b2 :: b3 :: topic ++ tsb ++ seqb ++ szb ++ r) =
              4 + get_be [b2; b3] + 16 + blen r).
  { rewrite !blen_cons, !blen_app, Ht. unfold blen at 1 2 3. rewrite H8, H4, Hs. lia. }
  rewrite !L. rewrite (ltb_false _ (1 + 1)) by lia. rewrite (ltb_false _ (2 + 2)) by lia.
  cbv zeta. rewrite ltb_false by lia.
  replace (split_to 4 (x03 :: c :: b2 :: b3 :: topic ++ tsb ++ seqb ++ szb ++ r))
    with (Some ([x03; c; b2; b3], topic ++ tsb ++ seqb ++ szb ++ r))
    by (symmetry; apply (split_to_app 4 [x03; c; b2; b3]); reflexivity).
  rewrite split_to_app by exact Ht.
  do 3 rewrite split_to_app by (unfold blen; lia). reflexivity.
Qed.

Lemma ps_header_shape c b2 b3 b : ps_need b2 b3 <= blen (x03 :: c :: b2 :: b3 :: b) ->
  exists topic tsb seqb szb r, b = topic ++ tsb ++ seqb ++ szb ++ r /\ blen topic = get_be [b2; b3] /\
   length tsb = 8%nat /\ length seqb = 4%nat /\ length szb = 4%nat.
Proof.
  intros H. unfold ps_need in H. rewrite !blen_cons in H.
  destruct (split_to_spec (get_be [b2; b3]) b ltac:(lia)) as (p & r & _ & -> & Hp).
  rewrite blen_app in H.
  destruct (split_to_spec 8 r ltac:(lia)) as (p2 & r2 & _ & -> & Hp2).
  rewrite blen_app in H.
  destruct (split_to_spec 4 r2 ltac:(lia)) as (p3 & r3 & _ & -> & Hp3).
  rewrite blen_app in H.
  destruct (split_to_spec 4 r3 ltac:(lia)) as (p4 & r4 & _ & -> & Hp4).
  exists p, p2, p3, p4, r4. unfold blen in *. repeat split; lia.
Qed.

Lemma ps_payload_full h p r : blen p = psh_size h ->
  ps_decode_payload (Some h) (p ++ r) = DMsg {| ps_hdr := h; ps_payload := p |} PSHeader r.
Proof.
  intros H. unfold ps_decode_payload. rewrite ltb_false by (rewrite blen_app; lia).
  rewrite split_to_app by exact H. reflexivity.
Qed.

Lemma ps_payload_short h b : blen b < psh_size h -> ps_decode_payload (Some h) b = DNone (PSPayload (Some h)) b.
Proof. intros H. unfold ps_decode_payload. rewrite ltb_true by exact H. reflexivity. Qed.

Inductive ps_cases (s : ps_state) (b : bytes) : Prop :=
| PC_nil : s = PSHeader -> b = [] -> ps_cases s b
| PC_foreign x b' : s = PSHeader -> b = x :: b' -> x <> x03 -> ps_cases s b
| PC_short4 b' : s = PSHeader -> b = x03 :: b' -> blen b < 4 -> ps_cases s b
| PC_short c b2 b3 b' : s = PSHeader -> b = x03 :: c :: b2 :: b3 :: b' -> blen b < ps_need b2 b3 -> ps_cases s b
| PC_hdr c b2 b3 topic tsb seqb szb r : s = PSHeader ->
    b = x03 :: c :: b2 :: b3 :: topic ++ tsb ++ seqb ++ szb ++ r ->
    blen topic = get_be [b2; b3] -> length tsb = 8%nat -> length seqb = 4%nat -> length szb = 4%nat ->
    blen r < get_be szb -> ps_cases s b
| PC_frame c b2 b3 topic tsb seqb szb p r : s = PSHeader ->
    b = x03 :: c :: b2 :: b3 :: topic ++ tsb ++ seqb ++ szb ++ p ++ r ->
    blen topic = get_be [b2; b3] -> length tsb = 8%nat -> length seqb = 4%nat -> length szb = 4%nat ->
    blen p = get_be szb -> ps_cases s b
| PC_pshort h : s = PSPayload (Some h) -> blen b < psh_size h -> ps_cases s b
| PC_pfull h p r : s = PSPayload (Some h) -> b = p ++ r -> blen p = psh_size h -> ps_cases s b.

Definition ps_ok (s : ps_state) : Prop :=
  match s with
  | PSHeader => True
  | PSPayload None => False
  | PSPayload (Some h) => psh_topic_size h = blen (psh_topic h) /\ psh_topic_size h < 2 ^ 16 /\
      psh_timestamp h < 2 ^ 64 /\ psh_seq h < 2 ^ 32 /\ psh_size h < 2 ^ 32
  end.

Lemma ps_cases_all s b : ps_ok s -> ps_cases s b.
Proof.
  destruct s as [|[h|]]; intros Hok; [| |contradiction].
  - destruct b as [|x b]; [apply PC_nil; reflexivity|].
    destruct (byte_eqb_spec x x03) as [->|Hx]; [|eapply PC_foreign; eauto].
    destruct b as [|c [|b2 [|b3 b]]]; try (eapply PC_short4; eauto; cbn; lia).
    destruct (N.lt_ge_cases (blen (x03 :: c :: b2 :: b3 :: b)) (ps_need b2 b3)) as [Hl|Hl]; [eapply PC_short; eauto|].
    destruct (ps_header_shape c b2 b3 b Hl) as (topic & tsb & seqb & szb & r & -> & Ht & H8 & H4 & Hs).
    destruct (N.lt_ge_cases (blen r) (get_be szb)) as [Hr|Hr].
    + eapply PC_hdr; eauto.
    + destruct (split_to_spec _ _ Hr) as (p & r2 & _ & -> & Hp). eapply PC_frame; eauto.
  - destruct (N.lt_ge_cases (blen b) (psh_size h)) as [Hr|Hr].
    + eapply PC_pshort; eauto.
    + destruct (split_to_spec _ _ Hr) as (p & r2 & _ & -> & Hp). eapply PC_pfull; eauto.
Qed.

Definition ps_w (s : ps_state) : nat := match s with PSHeader => 0 | PSPayload _ => 1 end.

Lemma mk_hdr_ok c b2 b3 topic tsb seqb szb :
  blen topic = get_be [b2; b3] -> length tsb = 8%nat -> length seqb = 4%nat -> length szb = 4%nat ->
  ps_ok (PSPayload (Some (mk_hdr c b2 b3 topic tsb seqb szb))).
Proof.
  intros Ht H8 H4 Hs. cbn. repeat split; auto.
  - apply (get_be_lt [b2; b3] 2); reflexivity.
  - apply (get_be_lt _ 8); assumption.
  - apply (get_be_lt _ 4); assumption.
  - apply (get_be_lt _ 4); assumption.
Qed.

Lemma ps_decode_spec s b : ps_ok s ->
  match ps_decode s b with
  | DNone s' r => ps_ok s' /\ (forall x, ps_decode s (b ++ x) = ps_decode s' (r ++ x)) /\
                  (length r + ps_w s' <= length b + ps_w s)%nat
  | DMsg m s' r => ps_ok s' /\ (forall x, ps_decode s (b ++ x) = DMsg m s' (r ++ x)) /\
                  (length r + ps_w s' < length b + ps_w s)%nat
  | DErr e s' r => s' = s /\ r = b /\ s = PSHeader /\ (forall x, ps_decode s (b ++ x) = DErr e s' (r ++ x)) /\
                  exists x y, b = x :: y /\ x <> x03 /\ e = PSWireId x
  | DPanic => False
  end.
Proof.
  intros Hok.
  assert (APP : forall (c b2 b3 : byte) (t a2 a3 a4 p r x : bytes),
     (x03 :: c :: b2 :: b3 :: t ++ a2 ++ a3 ++ a4 ++ p ++ r) ++ x = x03 :: c :: b2 :: b3 :: t ++ a2 ++ a3 ++ a4 ++ p ++ (r ++ x)).
  { intros. cbn. rewrite <- !app_assoc. reflexivity. }
  assert (APP3 : forall (c b2 b3 : byte) (t a2 a3 a4 r x : bytes),
     (x03 :: c :: b2 :: b3 :: t ++ a2 ++ a3 ++ a4 ++ r) ++ x = x03 :: c :: b2 :: b3 :: t ++ a2 ++ a3 ++ a4 ++ (r ++ x)).
  { intros. cbn. rewrite <- !app_assoc. reflexivity. }
  destruct (ps_cases_all s b Hok) as [->|x b' -> -> Hx|b' -> -> Hl|c b2 b3 b' -> -> Hl|
     c b2 b3 topic tsb seqb szb r0 -> -> Ht H8 H4 Hs Hr|c b2 b3 topic tsb seqb szb p r0 -> -> Ht H8 H4 Hs Hp|
     h -> Hl|h p r0 -> -> Hp]; subst; cbn [ps_decode].
  - cbn. auto.
  - rewrite ps_header_foreign by assumption. repeat split; eauto.
    intros y. cbn [app]. apply ps_header_foreign; assumption.
  - rewrite ps_header_short4 by assumption. auto.
  - rewrite ps_header_short by assumption. auto.
  - rewrite ps_header_full by assumption. rewrite ps_payload_short by assumption.
    split; [apply mk_hdr_ok; assumption|]. split.
    + intros x. rewrite APP3. cbn [ps_decode]. rewrite ps_header_full by assumption. reflexivity.
    + cbn [ps_w length]. rewrite !app_length. lia.
  - rewrite ps_header_full by assumption. rewrite ps_payload_full by assumption.
    split; [exact I|]. split.
    + intros x. rewrite APP. rewrite ps_header_full by assumption. rewrite ps_payload_full by assumption. reflexivity.
    + cbn [ps_w length]. rewrite !app_length. lia.
  - rewrite ps_payload_short by assumption. auto.
  - rewrite ps_payload_full by assumption. split; [exact I|]. split.
    + intros x. rewrite <- app_assoc. rewrite ps_payload_full by assumption. reflexivity.
    + cbn [ps_w]. rewrite app_length. lia.
Qed.

Lemma ps_incremental : incremental ps_decode ps_ok ps_w.
Proof.
  split; intros s b; intros; pose proof (ps_decode_spec s b) as P;
    destruct (ps_decode s b) eqn:D; try discriminate; 
    try match goal with X : _ = _ |- _ => inversion X; subst; clear X end; intuition.
  - subst; reflexivity || exact I.
Qed.

Definition ps_wf (m : ps_msg) : Prop :=
  let h := ps_hdr m in
  psh_topic_size h = blen (psh_topic h) /\ psh_topic_size h < 2 ^ 16 /\ psh_timestamp h < 2 ^ 64 /\
  psh_seq h < 2 ^ 32 /\ psh_size h = blen (ps_payload m) /\ blen (ps_payload m) < 2 ^ 32.

Lemma put_be_2 n : put_be 2 n = [byte_of (n / 256); byte_of n].
Proof. cbn [put_be]. change (256 ^ N.of_nat 1) with 256. change (256 ^ N.of_nat 0) with 1. rewrite N.div_1_r. reflexivity. Qed.

Lemma ps_decode_encode m r : ps_wf m -> ps_decode PSHeader (ps_encode m ++ r) = DMsg m PSHeader r.
Proof.
  destruct m as [[c tsz topic ts seq size] p]. intros (Htz & Ht & Hts & Hseq & Hs & Hp).
  cbn [ps_hdr ps_payload psh_ctype psh_topic_size psh_topic psh_timestamp psh_seq psh_size] in *. subst tsz size.
  unfold ps_encode; cbn [ps_hdr ps_payload psh_ctype psh_topic_size psh_topic psh_timestamp psh_seq psh_size].
  rewrite put_be_2.
  set (b2 := byte_of (blen topic / 256)). set (b3 := byte_of (blen topic)).
  assert (G : get_be [b2; b3] = blen topic).
  { unfold b2, b3. rewrite <- put_be_2. apply get_put. exact Ht. }
  replace ((ps_wire_id :: c :: [b2; b3] ++ topic ++ put_be 8 ts ++ put_be 4 seq ++ put_be 4 (blen p) ++ p) ++ r)
    with (x03 :: c :: b2 :: b3 :: topic ++ put_be 8 ts ++ put_be 4 seq ++ put_be 4 (blen p) ++ p ++ r)
    by (rewrite <- !app_comm_cons, <- !app_assoc; reflexivity).
  cbn [ps_decode]. rewrite ps_header_full; try apply put_be_length; [|symmetry; exact G].
  unfold mk_hdr. rewrite G, !get_put by assumption. apply ps_payload_full. reflexivity.
Qed.

Lemma ps_stream_app ms b ms' t : Forall ps_wf ms ->
  stream ps_decode PSHeader b ms' t ->
  stream ps_decode PSHeader (concat (map ps_encode ms) ++ b) (ms ++ ms') t.
Proof.
  intros H Hb. induction H as [|m ms Hm _ IH]; cbn [map concat app]; [exact Hb|].
  rewrite <- app_assoc. eapply st_msg; [apply ps_decode_encode; exact Hm|exact IH].
Qed.

Definition ps_held (s : ps_state) : bytes :=
  match s with
  | PSPayload (Some h) =>
    x03 :: psh_ctype h :: put_be 2 (psh_topic_size h) ++ psh_topic h ++ put_be 8 (psh_timestamp h)
       ++ put_be 4 (psh_seq h) ++ put_be 4 (psh_size h)
  | _ => []
  end.

Lemma ps_conserving : conserving ps_decode ps_ok ps_held ps_encode.
Proof.
  intros s b Hok.
  destruct (ps_cases_all s b Hok) as [->|x b' -> -> Hx|b' -> -> Hl|c b2 b3 b' -> -> Hl|
     c b2 b3 topic tsb seqb szb r0 -> -> Ht H8 H4 Hs Hr|c b2 b3 topic tsb seqb szb p r0 -> -> Ht H8 H4 Hs Hp|
     h -> Hl|h p r0 -> -> Hp]; subst; cbn [ps_decode].
  - cbn. auto.
  - rewrite ps_header_foreign by assumption. auto.
  - rewrite ps_header_short4 by assumption. auto.
  - rewrite ps_header_short by assumption. auto.
  - rewrite ps_header_full by assumption. rewrite ps_payload_short by assumption.
    split; [apply mk_hdr_ok; assumption|].
    unfold ps_held, mk_hdr; cbn [psh_ctype psh_topic_size psh_topic psh_timestamp psh_seq psh_size app].
    rewrite (put_get 2 [b2; b3]) by reflexivity. rewrite !put_get by assumption.
    rewrite <- !app_assoc. reflexivity.
  - rewrite ps_header_full by assumption. rewrite ps_payload_full by assumption. split; [exact I|].
    unfold ps_encode, mk_hdr; cbn [ps_hdr ps_payload psh_ctype psh_topic_size psh_topic psh_timestamp psh_seq psh_size app].
    rewrite (put_get 2 [b2; b3]) by reflexivity. rewrite !put_get by assumption.
    rewrite <- !app_assoc. reflexivity.
  - rewrite ps_payload_short by assumption. auto.
  - rewrite ps_payload_full by assumption. split; [exact I|].
    unfold ps_encode, ps_held; cbn [ps_hdr ps_payload app]. rewrite <- !app_assoc. reflexivity.
Qed.

Lemma ps_new_wf now seq topic payload c m :
  ps_new now seq topic payload c = Some m -> now < 2 ^ 64 -> seq < 2 ^ 32 -> blen payload < 2 ^ 32 -> ps_wf m.
Proof.
  unfold ps_new. destruct (N.ltb_spec (blen topic) (2 ^ 16)); [|discriminate].
  intros E Hn Hs Hp; inversion E; subst; clear E. unfold ps_wf, as_u32; cbn [ps_hdr ps_payload psh_topic_size psh_topic psh_timestamp psh_seq psh_size].
  repeat split; auto. apply N.mod_small; exact Hp.
Qed.

Lemma ps_frame_encode c topic ts seq p fr :
  pubsub_frame c topic ts seq p fr <->
  (ts < 2 ^ 64 /\ seq < 2 ^ 32 /\ blen p < 2 ^ 32 /\
   exists m, ps_new ts seq topic p c = Some m /\ fr = ps_encode m).
Proof.
  unfold pubsub_frame. split.
  - intros (tszb & tsb & seqb & szb & H1 & H2 & H3 & H4 & ->).
    pose proof (is_be_lt _ _ _ H1). pose proof (is_be_lt _ _ _ H2). pose proof (is_be_lt _ _ _ H3). pose proof (is_be_lt _ _ _ H4).
    assert (blen p < 2 ^ 32) by (unfold blen; cbn in *; lia).
    assert (blen topic < 2 ^ 16) by (unfold blen; cbn in *; lia).
    repeat split; auto. apply is_be_unique in H1, H2, H3, H4. subst.
    unfold ps_new. rewrite ltb_true by assumption. eexists; split; [reflexivity|].
    unfold ps_encode, as_u32; cbn [ps_hdr ps_payload psh_ctype psh_topic_size psh_topic psh_timestamp psh_seq psh_size].
    rewrite (N.mod_small (blen p)) by assumption. reflexivity.
  - intros (Hts & Hseq & Hp & m & E & ->).
    unfold ps_new in E. destruct (N.ltb_spec (blen topic) (2 ^ 16)); [|discriminate]. inversion E; subst; clear E.
    exists (put_be 2 (blen topic)), (put_be 8 ts), (put_be 4 seq), (put_be 4 (blen p)).
    split; [apply is_be_put; assumption|]. split; [apply is_be_put; assumption|].
    split; [apply is_be_put; assumption|]. split; [apply is_be_put; assumption|].
    unfold ps_encode, as_u32; cbn [ps_hdr ps_payload psh_ctype psh_topic_size psh_topic psh_timestamp psh_seq psh_size].
    rewrite (N.mod_small (blen p)) by assumption. reflexivity.
Qed.
