From Coq Require Import ZArith ZifyBool ZifyNat ZifyN.
From Verif Require Import Model.Base Model.Framed Model.WireReqRep Spec.Wire Spec.Stream
  Proofs.BaseP Proofs.FramedP.
Local Open Scope N_scope.

Lemma ltb_false a b : b <= a -> (a <? b) = false.
Proof. apply N.ltb_ge. Qed.
Lemma ltb_true a b : a < b -> (a <? b) = true.
Proof. apply N.ltb_lt. Qed.

(** case analysis of the header arm *)
Lemma rr_header_nil : rr_decode_header [] = DNone RRHeader [].
Proof. reflexivity. Qed.

Lemma rr_header_foreign x b : x <> x02 -> rr_decode_header (x :: b) = DErr (RRWireId x) RRHeader (x :: b).
Proof.
  intros H. unfold rr_decode_header. cbn [index nth_error].
  unfold rr_wire_id. destruct (byte_eqb_spec x x02); [contradiction|]. reflexivity.
Qed.

Lemma rr_header_short b : blen (x02 :: b) < 10 -> rr_decode_header (x02 :: b) = DNone RRHeader (x02 :: b).
Proof.
  intros H. unfold rr_decode_header. cbn [index nth_error].
  replace (Byte.eqb x02 rr_wire_id) with true by reflexivity. cbn [negb].
  destruct (N.ltb_spec (blen (x02 :: b)) (1 + 1)); [reflexivity|].
  destruct b as [|c b]; [cbn in *; lia|]. cbn [nth_error].
  rewrite ltb_true by lia. reflexivity.
Qed.

Lemma rr_header_full c idb szb r : length idb = 4%nat -> length szb = 4%nat ->
  rr_decode_header (x02 :: c :: idb ++ szb ++ r) =
  rr_decode_payload {| rrh_ctype := c; rrh_id := get_be idb; rrh_size := get_be szb |} r.
Proof.
  intros Hi Hs. unfold rr_decode_header. cbn [index nth_error].
  replace (Byte.eqb x02 rr_wire_id) with true by reflexivity. cbn [negb].
  assert (L : blen (x02 :: c :: idb ++ szb ++ r) = 10 + blen r).
  { rewrite !blen_cons, !blen_app. unfold blen at 1 2. rewrite Hi, Hs. lia. }
  rewrite !L, !ltb_false by lia.
  replace (split_to 2 (x02 :: c :: idb ++ szb ++ r)) with (Some ([x02; c], idb ++ szb ++ r))
    by (symmetry; apply (split_to_app 2 [x02; c]); reflexivity).
  rewrite split_to_app by (unfold blen; lia).
  rewrite split_to_app by (unfold blen; lia). reflexivity.
Qed.

Lemma rr_header_shape b : 10 <= blen (x02 :: b) ->
  exists c idb szb r, b = c :: idb ++ szb ++ r /\ length idb = 4%nat /\ length szb = 4%nat.
Proof.
  intros H. destruct b as [|c b]; [cbn in H; lia|].
  rewrite !blen_cons in H.
  destruct (split_to_spec 4 b ltac:(lia)) as (p & r & _ & -> & Hp).
  rewrite blen_app in H.
  destruct (split_to_spec 4 r ltac:(lia)) as (p2 & r2 & _ & -> & Hp2).
  exists c, p, p2, r2. unfold blen in *. repeat split; lia.
Qed.

Lemma rr_payload_full h p r : blen p = rrh_size h ->
  rr_decode_payload h (p ++ r) = DMsg {| rr_hdr := h; rr_payload := p |} RRHeader r.
Proof.
  intros H. unfold rr_decode_payload. rewrite ltb_false by (rewrite blen_app; lia).
  rewrite split_to_app by exact H. reflexivity.
Qed.

Lemma rr_payload_short h b : blen b < rrh_size h -> rr_decode_payload h b = DNone (RRPayload h) b.
Proof. intros H. unfold rr_decode_payload. rewrite ltb_true by exact H. reflexivity. Qed.

Lemma rr_payload_shape h (b : bytes) : rrh_size h <= blen b -> exists p r, b = p ++ r /\ blen p = rrh_size h.
Proof. intros H. destruct (split_to_spec _ _ H) as (p & r & _ & ? & ?). eauto. Qed.

Inductive rr_cases (s : rr_state) (b : bytes) : Prop :=
| RC_nil : s = RRHeader -> b = [] -> rr_cases s b
| RC_foreign x b' : s = RRHeader -> b = x :: b' -> x <> x02 -> rr_cases s b
| RC_short b' : s = RRHeader -> b = x02 :: b' -> blen b < 10 -> rr_cases s b
| RC_hdr c idb szb r : s = RRHeader -> b = x02 :: c :: idb ++ szb ++ r -> length idb = 4%nat ->
    length szb = 4%nat -> blen r < get_be szb -> rr_cases s b
| RC_frame c idb szb p r : s = RRHeader -> b = x02 :: c :: idb ++ szb ++ p ++ r -> length idb = 4%nat ->
    length szb = 4%nat -> blen p = get_be szb -> rr_cases s b
| RC_pshort h : s = RRPayload h -> blen b < rrh_size h -> rr_cases s b
| RC_pfull h p r : s = RRPayload h -> b = p ++ r -> blen p = rrh_size h -> rr_cases s b.

Lemma rr_cases_all s b : rr_cases s b.
Proof.
  destruct s as [|h].
  - destruct b as [|x b]; [apply RC_nil; reflexivity|].
    destruct (byte_eqb_spec x x02) as [->|Hx]; [|eapply RC_foreign; eauto].
    destruct (N.lt_ge_cases (blen (x02 :: b)) 10) as [Hl|Hl]; [eapply RC_short; eauto|].
    destruct (rr_header_shape b Hl) as (c & idb & szb & r & -> & Hi & Hs).
    destruct (N.lt_ge_cases (blen r) (get_be szb)) as [Hr|Hr].
    + eapply RC_hdr; eauto.
    + destruct (split_to_spec _ _ Hr) as (p & r2 & _ & -> & Hp). eapply RC_frame; eauto.
  - destruct (N.lt_ge_cases (blen b) (rrh_size h)) as [Hr|Hr].
    + eapply RC_pshort; eauto.
    + destruct (split_to_spec _ _ Hr) as (p & r2 & _ & -> & Hp). eapply RC_pfull; eauto.
Qed.

Definition rr_w (s : rr_state) : nat := match s with RRHeader => 0 | RRPayload _ => 1 end.

Lemma rr_incremental : incremental rr_decode (fun _ => True) rr_w.
Proof.
  assert (APP : forall (c : byte) (idb szb p r x : bytes),
     (x02 :: c :: idb ++ szb ++ p ++ r) ++ x = x02 :: c :: idb ++ szb ++ p ++ (r ++ x)).
  { intros. cbn. rewrite <- !app_assoc. reflexivity. }
  assert (APP3 : forall (c : byte) (idb szb r x : bytes),
     (x02 :: c :: idb ++ szb ++ r) ++ x = x02 :: c :: idb ++ szb ++ (r ++ x)).
  { intros. cbn. rewrite <- !app_assoc. reflexivity. }
  split.
  - intros s b m s' r _ D.
    destruct (rr_cases_all s b) as [->|x b' -> -> Hx|b' -> -> Hl|c idb szb r0 -> -> Hi Hs Hr|c idb szb p r0 -> -> Hi Hs Hp|h -> Hl|h p r0 -> -> Hp]; subst; cbn [rr_decode] in D.
    + discriminate.
    + rewrite rr_header_foreign in D by assumption. discriminate.
    + rewrite rr_header_short in D by assumption. discriminate.
    + rewrite rr_header_full in D by assumption. rewrite rr_payload_short in D by assumption. discriminate.
    + rewrite rr_header_full in D by assumption. rewrite rr_payload_full in D by assumption.
      inversion D; subst. split; [|split; [exact I|]].
      * intros x. rewrite APP. cbn [rr_decode]. rewrite rr_header_full by assumption.
        rewrite rr_payload_full by assumption. reflexivity.
      * cbn [rr_w length]. rewrite !app_length. lia.
    + rewrite rr_payload_short in D by assumption. discriminate.
    + rewrite rr_payload_full in D by assumption. inversion D; subst. split; [|split; [exact I|]].
      * intros x. cbn [rr_decode]. rewrite <- app_assoc. rewrite rr_payload_full by assumption. reflexivity.
      * cbn [rr_w]. rewrite app_length. lia.
  - intros s b e s' r _ D.
    destruct (rr_cases_all s b) as [->|x b' -> -> Hx|b' -> -> Hl|c idb szb r0 -> -> Hi Hs Hr|c idb szb p r0 -> -> Hi Hs Hp|h -> Hl|h p r0 -> -> Hp]; subst; cbn [rr_decode] in D.
    + discriminate.
    + rewrite rr_header_foreign in D by assumption. inversion D; subst. split; [|exact I].
      intros y. cbn [rr_decode app]. rewrite rr_header_foreign by assumption. reflexivity.
    + rewrite rr_header_short in D by assumption. discriminate.
    + rewrite rr_header_full in D by assumption. rewrite rr_payload_short in D by assumption. discriminate.
    + rewrite rr_header_full in D by assumption. rewrite rr_payload_full in D by assumption. discriminate.
    + rewrite rr_payload_short in D by assumption. discriminate.
    + rewrite rr_payload_full in D by assumption. discriminate.
  - intros s b s' r _ D.
    destruct (rr_cases_all s b) as [->|x b' -> -> Hx|b' -> -> Hl|c idb szb r0 -> -> Hi Hs Hr|c idb szb p r0 -> -> Hi Hs Hp|h -> Hl|h p r0 -> -> Hp]; subst; cbn [rr_decode] in D.
    + inversion D; subst. cbn. repeat split; auto.
    + rewrite rr_header_foreign in D by assumption. discriminate.
    + rewrite rr_header_short in D by assumption. inversion D; subst. cbn [rr_w]. auto.
    + rewrite rr_header_full in D by assumption. rewrite rr_payload_short in D by assumption.
      inversion D; subst. split; [|split; [exact I|]].
      * intros x. rewrite APP3. cbn [rr_decode]. rewrite rr_header_full by assumption. reflexivity.
      * cbn [rr_w length]. rewrite !app_length. lia.
    + rewrite rr_header_full in D by assumption. rewrite rr_payload_full in D by assumption. discriminate.
    + rewrite rr_payload_short in D by assumption. inversion D; subst. split; [|split; [exact I|]]; [reflexivity|cbn; lia].
    + rewrite rr_payload_full in D by assumption. discriminate.
  - intros s b _ D.
    destruct (rr_cases_all s b) as [->|x b' -> -> Hx|b' -> -> Hl|c idb szb r0 -> -> Hi Hs Hr|c idb szb p r0 -> -> Hi Hs Hp|h -> Hl|h p r0 -> -> Hp]; subst; cbn [rr_decode] in D.
    + discriminate.
    + rewrite rr_header_foreign in D by assumption. discriminate.
    + rewrite rr_header_short in D by assumption. discriminate.
    + rewrite rr_header_full in D by assumption. rewrite rr_payload_short in D by assumption. discriminate.
    + rewrite rr_header_full in D by assumption. rewrite rr_payload_full in D by assumption. discriminate.
    + rewrite rr_payload_short in D by assumption. discriminate.
    + rewrite rr_payload_full in D by assumption. discriminate.
Qed.

(** a message as built by [Message::new] with a payload below 4 GiB *)
Definition rr_wf (m : rr_msg) : Prop :=
  rr_id m < 2 ^ 32 /\ rr_payload_size m = blen (rr_payload m) /\ blen (rr_payload m) < 2 ^ 32.

Lemma rr_new_wf id c p : id < 2 ^ 32 -> blen p < 2 ^ 32 -> rr_wf (rr_new id c p).
Proof.
  intros Hi Hp. unfold rr_wf, rr_new, rr_id, rr_payload_size, as_u32; cbn.
  repeat split; auto. apply N.mod_small; exact Hp.
Qed.

Lemma rr_decode_encode m r : rr_wf m -> rr_decode RRHeader (rr_encode m ++ r) = DMsg m RRHeader r.
Proof.
  destruct m as [[c id size] p]. intros (Hi & Hs & Hp).
  unfold rr_id, rr_payload_size in *; cbn [rr_hdr rr_payload rrh_ctype rrh_id rrh_size] in *. subst size.
  unfold rr_encode; cbn [rr_hdr rr_payload rrh_ctype rrh_id rrh_size].
  replace ((rr_wire_id :: c :: put_be 4 id ++ put_be 4 (blen p) ++ p) ++ r)
    with (x02 :: c :: put_be 4 id ++ put_be 4 (blen p) ++ p ++ r)
    by (rewrite <- !app_comm_cons, <- !app_assoc; reflexivity).
  cbn [rr_decode]. rewrite rr_header_full by apply put_be_length.
  rewrite !get_put by assumption. apply rr_payload_full. reflexivity.
Qed.

Lemma rr_stream_encode ms : Forall rr_wf ms ->
  stream rr_decode RRHeader (concat (map rr_encode ms)) ms (TMore RRHeader []).
Proof.
  induction 1 as [|m ms Hm _ IH]; cbn [map concat].
  - apply st_more. reflexivity.
  - eapply st_msg; [apply rr_decode_encode; exact Hm|exact IH].
Qed.

(** spec frames are what the encoder produces *)
Lemma rr_frame_encode id c p fr :
  reqrep_frame id c p fr <-> (id < 2^32 /\ blen p < 2^32 /\ fr = rr_encode (rr_new id c p)).
Proof.
  unfold reqrep_frame. split.
  - intros (idb & szb & Hi & Hs & ->).
    pose proof (is_be_lt _ _ _ Hi). pose proof (is_be_lt _ _ _ Hs).
    assert (blen p < 2 ^ 32) by (unfold blen; cbn in *; lia).
    repeat split; auto. apply is_be_unique in Hi, Hs. subst.
    unfold rr_encode, rr_new, as_u32; cbn [rr_hdr rr_payload rrh_ctype rrh_id rrh_size].
    rewrite N.mod_small by assumption. reflexivity.
  - intros (Hi & Hp & ->).
    exists (put_be 4 id), (put_be 4 (blen p)). repeat split; try apply put_be_length.
    + rewrite be_value_put. apply N.mod_small. exact Hi.
    + rewrite be_value_put. apply N.mod_small. exact Hp.
    + unfold rr_encode, rr_new, as_u32; cbn [rr_hdr rr_payload rrh_ctype rrh_id rrh_size].
      rewrite N.mod_small by assumption. reflexivity.
Qed.

(** bytes held in the decoder state (a consumed header) *)
Definition rr_held (s : rr_state) : bytes :=
  match s with
  | RRHeader => []
  | RRPayload h => x02 :: rrh_ctype h :: put_be 4 (rrh_id h) ++ put_be 4 (rrh_size h)
  end.

From Verif Require Import Proofs.FramedP2.

Definition rr_ok (s : rr_state) : Prop :=
  match s with RRHeader => True | RRPayload h => rrh_id h < 2 ^ 32 /\ rrh_size h < 2 ^ 32 end.

Lemma rr_conserving : conserving rr_decode rr_ok rr_held rr_encode.
Proof.
  intros s b Hok.
  destruct (rr_cases_all s b) as [->|x b' -> -> Hx|b' -> -> Hl|c idb szb r0 -> -> Hi Hs Hr|c idb szb p r0 -> -> Hi Hs Hp|h -> Hl|h p r0 -> -> Hp]; subst; cbn [rr_decode].
  - cbn. auto.
  - rewrite rr_header_foreign by assumption. auto.
  - rewrite rr_header_short by assumption. auto.
  - rewrite rr_header_full by assumption. rewrite rr_payload_short by assumption.
    split; [split; apply (get_be_lt _ 4); assumption|].
    unfold rr_held; cbn [rrh_ctype rrh_id rrh_size app]. rewrite !put_get by assumption.
    rewrite <- app_assoc. reflexivity.
  - rewrite rr_header_full by assumption. rewrite rr_payload_full by assumption. split; [exact I|].
    unfold rr_encode; cbn [rr_hdr rr_payload rrh_ctype rrh_id rrh_size app]. rewrite !put_get by assumption.
    rewrite <- !app_assoc. reflexivity.
  - rewrite rr_payload_short by assumption. auto.
  - rewrite rr_payload_full by assumption. split; [exact I|].
    unfold rr_encode, rr_held; cbn [rr_hdr rr_payload app]. rewrite <- !app_assoc. reflexivity.
Qed.

Lemma rr_err_inv s b e s' r : rr_decode s b = DErr e s' r ->
  s' = s /\ r = b /\ s = RRHeader /\ exists x y, b = x :: y /\ x <> x02 /\ e = RRWireId x.
Proof.
  intros D.
  destruct (rr_cases_all s b) as [->|x b' -> -> Hx|b' -> -> Hl|c idb szb r0 -> -> Hi Hs Hr|c idb szb p r0 -> -> Hi Hs Hp|h -> Hl|h p r0 -> -> Hp]; subst; cbn [rr_decode] in D.
  - discriminate.
  - rewrite rr_header_foreign in D by assumption. inversion D; subst. repeat split; eauto.
  - rewrite rr_header_short in D by assumption. discriminate.
  - rewrite rr_header_full in D by assumption. rewrite rr_payload_short in D by assumption. discriminate.
  - rewrite rr_header_full in D by assumption. rewrite rr_payload_full in D by assumption. discriminate.
  - rewrite rr_payload_short in D by assumption. discriminate.
  - rewrite rr_payload_full in D by assumption. discriminate.
Qed.

Lemma rr_stream_app ms b ms' t : Forall rr_wf ms ->
  stream rr_decode RRHeader b ms' t ->
  stream rr_decode RRHeader (concat (map rr_encode ms) ++ b) (ms ++ ms') t.
Proof.
  intros H Hb. induction H as [|m ms Hm _ IH]; cbn [map concat app]; [exact Hb|].
  rewrite <- app_assoc. eapply st_msg; [apply rr_decode_encode; exact Hm|exact IH].
Qed.
