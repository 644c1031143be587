From Coq Require Import ZArith ZifyBool ZifyNat ZifyN.
From Verif Require Import Model.Base Model.Framed Model.WireAuth Spec.Wire Spec.Stream Spec.AuthCuts
  Proofs.BaseP Proofs.FramedP Proofs.FramedP2 Proofs.ReqRepP.
Local Open Scope N_scope.

Lemma blen_nil {A} : blen (@nil A) = 0.
Proof. reflexivity. Qed.

(** ** The client side (waiting for the ack) is an incremental decoder *)
Lemma au_ack_nil : au_decode AUAck [] = DNone AUAck [].
Proof. reflexivity. Qed.
Lemma au_ack_one x : au_decode AUAck [x] = DNone AUAck [x].
Proof. reflexivity. Qed.
Lemma au_ack_two x y r : au_decode AUAck (x :: y :: r) =
  if negb (Byte.eqb x x01) then DErr (AUWireId x) AUAck (x :: y :: r)
  else if Byte.to_N y =? 0 then DErr AURejected AUAck r else DMsg AckM AUAck r.
Proof.
  unfold au_decode. rewrite !blen_cons. rewrite ltb_false by lia. cbn [index nth_error].
  unfold au_wire_id. destruct (Byte.eqb x x01); cbn [negb]; [|reflexivity].
  replace (split_to 1 (x :: y :: r)) with (Some ([x], y :: r)) by (symmetry; apply (split_to_app 1 [x]); reflexivity).
  replace (split_to 1 (y :: r)) with (Some ([y], r)) by (symmetry; apply (split_to_app 1 [y]); reflexivity).
  unfold get_be; cbn [fold_left]. rewrite N.mul_0_l, N.add_0_l. reflexivity.
Qed.

Lemma au_client_incremental : incremental au_decode (fun s => s = AUAck) (fun _ => 0%nat).
Proof.
  split.
  - intros s b m s' r -> D. destruct b as [|x [|y b]]; try discriminate.
    rewrite au_ack_two in D.
    destruct (Byte.eqb x x01) eqn:Ex; cbn [negb] in D; [|discriminate].
    destruct (Byte.to_N y =? 0) eqn:Ey; [discriminate|]. inversion D; subst.
    split; [|split; [reflexivity|cbn; lia]].
    intros z. cbn [app]. rewrite au_ack_two, Ex, Ey. reflexivity.
  - intros s b e s' r -> D. destruct b as [|x [|y b]]; try discriminate.
    rewrite au_ack_two in D.
    destruct (Byte.eqb x x01) eqn:Ex; cbn [negb] in D.
    + destruct (Byte.to_N y =? 0) eqn:Ey; [|discriminate]. inversion D; subst. split; [|reflexivity].
      intros z. cbn [app]. rewrite au_ack_two, Ex, Ey. reflexivity.
    + inversion D; subst. split; [|reflexivity]. intros z. cbn [app]. rewrite au_ack_two, Ex. reflexivity.
  - intros s b s' r -> D. destruct b as [|x [|y b]].
    + inversion D; subst. split; [reflexivity|split; [reflexivity|cbn; lia]].
    + inversion D; subst. split; [reflexivity|split; [reflexivity|cbn; lia]].
    + rewrite au_ack_two in D. destruct (negb (Byte.eqb x x01)), (Byte.to_N y =? 0); discriminate.
  - intros s b ->. destruct b as [|x [|y b]]; try discriminate.
    rewrite au_ack_two. destruct (negb (Byte.eqb x x01)), (Byte.to_N y =? 0); discriminate.
Qed.

(** ** The server side *)
Lemma au_rcv_foreign x b : x <> x01 -> au_decode AUReceive (x :: b) = DErr (AUWireId x) AUReceive (x :: b).
Proof.
  intros H. unfold au_decode. cbn [index nth_error].
  unfold au_wire_id. destruct (byte_eqb_spec x x01); [contradiction|]. reflexivity.
Qed.

Lemma au_rcv_short b : blen (x01 :: b) < 4 -> au_decode AUReceive (x01 :: b) = DNone AUReceive (x01 :: b).
Proof.
  intros H. unfold au_decode. cbn [index nth_error].
  replace (Byte.eqb x01 au_wire_id) with true by reflexivity. cbn [negb].
  rewrite ltb_true by exact H. reflexivity.
Qed.

Lemma au_rcv_four a b c : au_decode AUReceive [x01; a; b; c] = DPanic.
Proof. reflexivity. Qed.

Lemma au_rcv_long szb b : length szb = 4%nat ->
  au_decode AUReceive (x01 :: szb ++ b) =
  if blen b + 5 <? get_be szb then DNone AUReceive (x01 :: szb ++ b)
  else match split_to (get_be szb) b with
       | None => DPanic
       | Some (id, rest) => DMsg (AuthM id) AUAck rest
       end.
Proof.
  intros Hs. destruct szb as [|b1 [|b2 [|b3 [|b4 [|? ?]]]]]; try discriminate. clear Hs.
  unfold au_decode. cbn [index nth_error app].
  replace (Byte.eqb x01 au_wire_id) with true by reflexivity. cbn [negb].
  assert (L : blen (x01 :: b1 :: b2 :: b3 :: b4 :: b) = blen b + 5) by (rewrite !blen_cons; lia).
  rewrite L, (ltb_false _ 4) by lia. cbv zeta.
  destruct (blen b + 5 <? get_be [b1; b2; b3; b4]); [reflexivity|].
  replace (split_to 1 (x01 :: b1 :: b2 :: b3 :: b4 :: b)) with (Some ([x01], b1 :: b2 :: b3 :: b4 :: b))
    by (symmetry; apply (split_to_app 1 [x01]); reflexivity).
  replace (split_to 4 (b1 :: b2 :: b3 :: b4 :: b)) with (Some ([b1; b2; b3; b4], b))
    by (symmetry; apply (split_to_app 4 [b1; b2; b3; b4]); reflexivity).
  reflexivity.
Qed.

(** exact characterisation on prefixes of a well-formed token frame *)
Lemma au_prefix token szb pre post :
  is_be 4 (blen token) szb -> x01 :: szb ++ token = pre ++ post -> pre <> [] ->
  au_decode AUReceive pre =
  if fatal_cut (blen token) (blen pre) then DPanic
  else match post with [] => DMsg (AuthM token) AUAck [] | _ => DNone AUReceive pre end.
Proof.
  intros [Hl Hv] E Hne.
  assert (L : blen pre + blen post = 5 + blen token).
  { rewrite <- blen_app, <- E, blen_cons, blen_app. unfold blen at 1. rewrite Hl. lia. }
  destruct pre as [|x pre]; [contradiction|]. inversion E as [[Ex E']]; subst x.
  rewrite blen_cons in *.
  destruct (N.lt_ge_cases (1 + blen pre) 4) as [H4|H4].
  - rewrite au_rcv_short by (rewrite blen_cons; lia).
    unfold fatal_cut. destruct (N.eqb_spec (1 + blen pre) 4); [lia|].
    destruct (N.leb_spec 5 (1 + blen pre)); [lia|]. cbn [orb andb].
    destruct post; [rewrite blen_nil in L; lia|reflexivity].
  - destruct (N.eq_dec (1 + blen pre) 4) as [H4'|H4'].
    + destruct pre as [|a [|b [|c [|? ?]]]]; try (rewrite ?blen_cons, ?blen_nil in H4'; lia).
      reflexivity.
    + destruct (split_to_spec 4 pre ltac:(lia)) as (p & r & _ & -> & Hp).
      rewrite <- app_assoc in E'.
      assert (szb = p /\ token = r ++ post) as [<- ->].
      { apply app_inj_tail_iff in E' || idtac.
        assert (length szb = length p) by (unfold blen in *; lia).
        clear - E' H. revert p H E'. induction szb as [|a s IH]; intros [|b p] H E'; cbn in *; try discriminate; auto.
        inversion E'; subst. destruct (IH p ltac:(lia) H2) as [-> ->]. auto. }
      rewrite au_rcv_long by exact Hl.
      rewrite get_be_value, Hv.
      rewrite !blen_app in *. 
      unfold fatal_cut. destruct (N.eqb_spec (1 + (blen szb + blen r)) 4); [lia|].
      destruct (N.leb_spec 5 (1 + (blen szb + blen r))); [|lia]. cbn [orb andb].
      destruct (N.ltb_spec (blen r + 5) (blen r + blen post)).
      * destruct (N.leb_spec (blen r + blen post) (1 + (blen szb + blen r))); [lia|]. cbn [andb].
        destruct post; [rewrite blen_nil in *; lia|reflexivity].
      * destruct (N.leb_spec (blen r + blen post) (1 + (blen szb + blen r))); [|lia]. cbn [andb].
        destruct post as [|y post].
        -- destruct (N.ltb_spec (1 + (blen szb + blen r)) (5 + (blen r + blen (@nil byte)))); [rewrite blen_nil in *; lia|].
           rewrite app_nil_r. pose proof (split_to_app (blen r + blen (@nil byte)) r []) as X.
           rewrite app_nil_r in X. rewrite X by (rewrite blen_nil; lia). reflexivity.
        -- rewrite blen_cons in *. destruct (N.ltb_spec (1 + (blen szb + blen r)) (5 + (blen r + (1 + blen post)))); [|lia].
           rewrite (proj2 (split_to_None _ _)) by lia. reflexivity.
Qed.

(** all panics of the server-side decoder *)
Lemma au_server_panic b : au_decode AUReceive b = DPanic <->
  exists r, b = x01 :: r /\
    (length r = 3%nat \/
     exists szb t, r = szb ++ t /\ length szb = 4%nat /\ be_value szb <= blen t + 5 /\ blen t < be_value szb).
Proof.
  split.
  - intros D. destruct b as [|x b]; [discriminate|].
    destruct (byte_eqb_spec x x01) as [->|Hx]; [|rewrite au_rcv_foreign in D by exact Hx; discriminate].
    exists b. split; [reflexivity|].
    destruct (N.lt_ge_cases (blen (x01 :: b)) 4) as [H4|H4]; [rewrite au_rcv_short in D by exact H4; discriminate|].
    rewrite blen_cons in H4.
    destruct (N.eq_dec (blen b) 3) as [H3|H3]; [left; unfold blen in H3; lia|]. right.
    destruct (split_to_spec 4 b ltac:(lia)) as (p & r & _ & -> & Hp).
    assert (Hp' : length p = 4%nat) by (unfold blen in Hp; lia).
    exists p, r. rewrite au_rcv_long in D by exact Hp'. rewrite get_be_value in D.
    destruct (N.ltb_spec (blen r + 5) (be_value p)); [discriminate|].
    destruct (split_to (be_value p) r) as [[? ?]|] eqn:X; [discriminate|].
    apply split_to_None in X. auto.
  - intros (r & -> & [H3|(szb & t & -> & Hs & H1 & H2)]).
    + destruct r as [|a [|b [|c [|? ?]]]]; try discriminate. reflexivity.
    + rewrite au_rcv_long by exact Hs. rewrite get_be_value, ltb_false by exact H1.
      rewrite (proj2 (split_to_None _ _)) by exact H2. reflexivity.
Qed.

(** the whole handshake read, for every way of cutting the frame *)
Lemma observed_only_pending {M E} (rs : list (polled M E)) : Forall (fun r => r = PPending) rs -> observed rs = [].
Proof. induction 1 as [|r rs -> _ IH]; cbn; auto. Qed.

Lemma au_idle n f : fr_codec f = AUAck -> fr_buf f = [] -> fr_errored f = false -> fr_eof f = false ->
  observed (fst (fst (framed_polls au_decode AUIo n f []))) = [].
Proof.
  revert f. induction n as [|n IH]; intros f H1 H2 H3 H4; [reflexivity|].
  cbn [framed_polls]. rewrite framed_poll_unfold. unfold framed_front. rewrite H3, H4.
  destruct (fr_readable f).
  - rewrite H1, H2, au_ack_nil.
    specialize (IH (mkFramed AUAck [] false false false) eq_refl eq_refl eq_refl eq_refl).
    destruct (framed_polls au_decode AUIo n _ []) as [[rs f2] i2]. cbn. exact IH.
  - specialize (IH f H1 H2 H3 H4).
    destruct (framed_polls au_decode AUIo n f []) as [[rs f2] i2]. cbn. exact IH.
Qed.

Lemma delivery_nil input : Forall delivery input -> received input = [] -> Forall (fun i => i = IoPending) input.
Proof.
  induction 1 as [|i l Hi Hl IH]; intros R; constructor.
  - destruct i as [[|x c]| |]; cbn in Hi; try contradiction; [cbn in R; discriminate|reflexivity].
  - apply IH. destruct i as [[|x c]| |]; cbn in Hi; try contradiction; [cbn in R; discriminate|exact R].
Qed.

Lemma cuts_pending k input : Forall (fun i => i = IoPending) input -> cuts k input = [].
Proof. induction 1 as [|i l -> _ IH]; cbn; auto. Qed.

Lemma au_idle_pending n : forall input f, Forall (fun i => i = IoPending) input ->
  fr_codec f = AUAck -> fr_buf f = [] -> fr_errored f = false -> fr_eof f = false ->
  observed (fst (fst (framed_polls au_decode AUIo n f input))) = [].
Proof.
  induction n as [|n IH]; intros input f HF H1 H2 H3 H4; [reflexivity|].
  cbn [framed_polls].
  assert (X : exists f' i', framed_poll au_decode AUIo f input = (PPending, f', i') /\ Forall (fun i => i = IoPending) i' /\
     fr_codec f' = AUAck /\ fr_buf f' = [] /\ fr_errored f' = false /\ fr_eof f' = false).
  { rewrite framed_poll_unfold. unfold framed_front. rewrite H3, H4. 
    destruct (fr_readable f).
    - rewrite H1, H2, au_ack_nil. destruct HF as [|i l -> HF]; do 2 eexists; split; try reflexivity; cbn; repeat split; auto.
    - destruct HF as [|i l -> HF]; do 2 eexists; split; try reflexivity; cbn; repeat split; auto. }
  destruct X as (f' & i' & -> & HF' & A & B & C & D). specialize (IH i' f' HF' A B C D).
  destruct (framed_polls au_decode AUIo n f' i') as [[rs f2] i2]. cbn. exact IH.
Qed.

Lemma au_handshake_gen token szb : is_be 4 (blen token) szb ->
  forall n input f pre, Forall delivery input ->
    fr_codec f = AUReceive -> fr_buf f = pre -> fr_errored f = false -> fr_eof f = false -> fr_readable f = false ->
    received input <> [] ->
    pre ++ received input = x01 :: szb ++ token ->
    (length input + 1 <= n)%nat ->
    observed (fst (fst (framed_polls au_decode AUIo n f input))) =
    if existsb (fatal_cut (blen token)) (cuts (blen pre) input) then [PPanic] else [PItem (AuthM token)].
Proof.
  intros Hbe n. induction n as [|n IHn]; intros input f pre Hd Hc Hb He Heof Hrd Hne E Hn; [lia|].
  cbn [framed_polls].
  (* inner induction over the reads of one poll *)
  assert (INNER : forall input f pre, Forall delivery input ->
    fr_codec f = AUReceive -> fr_buf f = pre -> fr_errored f = false -> fr_eof f = false -> fr_readable f = false ->
    received input <> [] -> pre ++ received input = x01 :: szb ++ token -> (length input <= n)%nat ->
    let '(r, f', i') := framed_poll au_decode AUIo f input in
    observed (r :: fst (fst (framed_polls au_decode AUIo n f' i'))) =
    if existsb (fatal_cut (blen token)) (cuts (blen pre) input) then [PPanic] else [PItem (AuthM token)]).
  { clear input f pre Hd Hc Hb He Heof Hrd Hne E Hn.
    induction input as [|i input IHi]; intros f pre Hd Hc Hb He Heof Hrd Hne E Hn; [cbn in Hne; congruence|].
    rewrite framed_poll_unfold. unfold framed_front at 1. rewrite He, Hrd.
    inversion Hd as [|? ? Hi Hd']; subst.
    destruct i as [[|x c]| |]; cbn in Hi; try contradiction.
    - cbn [cuts existsb]. rewrite He, Hc.
      rewrite received_cons in E, Hne.
      assert (P := au_prefix token szb (fr_buf f ++ x :: c) (received input) Hbe
                     ltac:(rewrite <- app_assoc; symmetry; exact E) ltac:(destruct (fr_buf f); discriminate)).
      assert (PL : blen (fr_buf f ++ x :: c) = blen (fr_buf f) + blen (x :: c)) by apply blen_app.
      rewrite PL in P.
      destruct (fatal_cut (blen token) (blen (fr_buf f) + blen (x :: c))).
      + (* panic *)
        rewrite framed_poll_unfold. unfold framed_front. cbn [fr_errored fr_readable fr_eof fr_codec fr_buf].
        rewrite P. cbn. reflexivity.
      + destruct (received input) as [|y rest] eqn:R.
        * (* complete *)
          rewrite framed_poll_unfold. unfold framed_front. cbn [fr_errored fr_readable fr_eof fr_codec fr_buf].
          rewrite P. cbn [observed fst].
          pose proof (delivery_nil _ Hd' R) as HP.
          rewrite (cuts_pending _ _ HP). cbn [existsb orb].
          f_equal. apply au_idle_pending; auto.
        * (* more to come *)
          cbn [orb].
          rewrite framed_poll_unfold. unfold framed_front. cbn [fr_errored fr_readable fr_eof fr_codec fr_buf].
          rewrite P.
          (* same as polling the non-readable state *)
          set (g := mkFramed AUReceive (fr_buf f ++ x :: c) false false false).
          specialize (IHi g (fr_buf f ++ x :: c) Hd' eq_refl eq_refl eq_refl eq_refl eq_refl ltac:(discriminate)
             ltac:(rewrite <- app_assoc; exact E) ltac:(cbn in Hn; lia)).
          rewrite framed_poll_unfold in IHi. unfold framed_front at 1 in IHi. cbn [fr_errored fr_readable fr_eof fr_codec fr_buf g] in IHi.
          rewrite PL in IHi. exact IHi.
    - cbn [observed cuts].
      rewrite received_cons in E, Hne. cbn [app] in E, Hne.
      apply IHn; auto. cbn [length] in Hn. lia. }
  specialize (INNER input f pre Hd Hc Hb He Heof Hrd Hne E ltac:(lia)).
  destruct (framed_poll au_decode AUIo f input) as [[r f1] i1].
  destruct (framed_polls au_decode AUIo n f1 i1) as [[rs f2] i2]. exact INNER.
Qed.

Lemma au_handshake token frame input n :
  auth_frame token frame -> Forall delivery input -> received input = frame -> (length input + 1 <= n)%nat ->
  observed (fst (fst (framed_polls au_decode AUIo n (framed_new au_server) input))) =
  if existsb (fatal_cut (blen token)) (cuts 0 input) then [PPanic] else [PItem (AuthM token)].
Proof.
  intros (szb & Hbe & ->) Hd HR Hn.
  apply (au_handshake_gen token szb Hbe n input (framed_new au_server) []); auto.
  rewrite HR. discriminate.
Qed.

Lemma au_frame_encode token fr s : auth_frame token fr <->
  blen token < 2 ^ 32 /\ fr = fst (au_encode s (AuthM token)).
Proof.
  unfold auth_frame, au_encode; cbn [fst]. split.
  - intros (szb & H & ->). pose proof (is_be_lt _ _ _ H). split; [exact H0|].
    apply is_be_unique in H. subst. unfold as_u32.
    rewrite N.mod_small by exact H0. reflexivity.
  - intros (H & ->). exists (put_be 4 (blen token)). split; [apply is_be_put; exact H|].
    unfold as_u32. rewrite N.mod_small by exact H. reflexivity.
Qed.
