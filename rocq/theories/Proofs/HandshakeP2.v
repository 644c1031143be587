(** The client's handshake, and what both handshakes leave unread. *)
From Coq Require Import ZArith ZifyBool ZifyNat ZifyN.
From Verif Require Import Model.Base Model.Framed Model.WireAuth Model.Handshake Spec.Wire Spec.Stream Spec.AuthCuts Spec.AuthSpec
  Proofs.BaseP Proofs.FramedP Proofs.FramedP2 Proofs.AuthP Proofs.HandshakeP.
Local Open Scope N_scope.

Definition cst (b : bytes) : framed au_state := mkFramed AUAck b false false false.

(** What the client makes of a message or failure. *)
Definition cl_of (r : polled au_msg au_err) : cl_res :=
  match r with PItem AckM => ClOk | PItem _ | PFail _ | PEnd => ClErr | PPanic => ClPanic | PPending => ClRunning end.

Definition cl_says (b : bytes) (e : ending) : cl_res :=
  match server_says b with
  | Acked => ClOk | Refused => ClErr
  | NoVerdict => match e with StillOpen => ClRunning | _ => ClErr end
  end.

Lemma auth_client_next t input : auth_client (Some t) true input =
  let '(r, _, rest) := au_next (length input) (cst []) input in (cl_of r, fst (au_encode au_client (AuthM t)), rest).
Proof.
  unfold auth_client. destruct (au_encode au_client (AuthM t)) as [b st] eqn:E. assert (st = AUAck) as -> by (cbn in E; congruence).
  cbn [fst]. change (framed_new AUAck) with (cst []). destruct (au_next (length input) (cst []) input) as [[r f] rest]. destruct r as [[| |]| | | |]; reflexivity.
Qed.

Lemma says_short x : server_says [x] = NoVerdict. Proof. reflexivity. Qed.

Lemma poll_pending b rest : server_says b = NoVerdict -> framed_poll au_decode AUIo (cst b) (IoPending :: rest) = (PPending, cst b, rest).
Proof. reflexivity. Qed.

Lemma decode_says b : match server_says b with
  | NoVerdict => au_decode AUAck b = DNone AUAck b
  | Acked => au_decode AUAck b = DMsg AckM AUAck (skipn 2 b)
  | Refused => exists e r, au_decode AUAck b = DErr e AUAck r
  end.
Proof.
  destruct b as [|x [|v b]]; [exact au_ack_nil|exact (au_ack_one x)|]. cbn [server_says]. rewrite au_ack_two.
  unfold au_wire_id. destruct (byte_eqb_spec x x01) as [->|Hx]; cbn [negb].
  - destruct (byte_eqb_spec v x00) as [->|Hv]; [cbn; eauto|]. destruct (N.eqb_spec (Byte.to_N v) 0) as [E|_]; [|reflexivity].
    exfalso. apply Hv. destruct v; try discriminate E. reflexivity.
  - eauto.
Qed.

Lemma poll_data b x c rest : server_says b = NoVerdict ->
  match server_says (b ++ x :: c) with
  | NoVerdict => framed_poll au_decode AUIo (cst b) (IoData (x :: c) :: rest) = framed_poll au_decode AUIo (cst (b ++ x :: c)) rest
  | Acked => exists f, framed_poll au_decode AUIo (cst b) (IoData (x :: c) :: rest) = (PItem AckM, f, rest) /\ fr_buf f = skipn 2 (b ++ x :: c)
  | Refused => exists e f, framed_poll au_decode AUIo (cst b) (IoData (x :: c) :: rest) = (PFail e, f, rest)
  end.
Proof.
  intros Hb. pose proof (decode_says (b ++ x :: c)) as H. change (framed_poll au_decode AUIo (cst b) (IoData (x :: c) :: rest)) with (framed_poll au_decode AUIo (mkFramed AUAck (b ++ x :: c) true false false) rest).
  rewrite framed_poll_unfold. unfold framed_front. cbn [fr_errored fr_readable fr_eof fr_codec fr_buf].
  destruct (server_says (b ++ x :: c)).
  - rewrite H. eexists. split; reflexivity.
  - destruct H as (e & r & ->). eauto.
  - rewrite H. rewrite (framed_poll_unfold _ _ (cst _)). reflexivity.
Qed.

Lemma next_poll n f input input' f' : framed_poll au_decode AUIo f input = framed_poll au_decode AUIo f' input' -> au_next n f input = au_next n f' input'.
Proof. intros H. destruct n; cbn [au_next]; rewrite H; reflexivity. Qed.

Lemma next_client : forall input n b post, (length (input ++ post) <= n)%nat -> server_says b = NoVerdict -> Forall delivery input ->
  match server_says (b ++ received input) with
  | NoVerdict => exists m, (length post <= m)%nat /\ au_next n (cst b) (input ++ post) = au_next m (cst (b ++ received input)) post
  | Acked => exists f used rest, input = used ++ rest /\ au_next n (cst b) (input ++ post) = (PItem AckM, f, rest ++ post) /\ server_says (b ++ received used) = Acked /\
      fr_buf f = skipn 2 (b ++ received used)
  | Refused => exists e f used rest, input = used ++ rest /\ au_next n (cst b) (input ++ post) = (PFail e, f, rest ++ post) /\ server_says (b ++ received used) = Refused
  end.
Proof.
  assert (Mono : forall b c, server_says b <> NoVerdict -> server_says (b ++ c) = server_says b).
  { intros b c. destruct b as [|x [|v b]]; cbn; congruence. }
  induction input as [|i input IH]; intros n b post Hn Hb Hd.
  - cbn [received map concat app]. rewrite app_nil_r, Hb. exists n. split; [exact Hn|reflexivity].
  - inversion Hd as [|? ? Hi Hd']; subst. cbn [length app] in Hn. destruct i as [[|x c]| |]; try contradiction.
    + rewrite received_cons, app_assoc. pose proof (poll_data b x c (input ++ post) Hb) as P. destruct (server_says (b ++ x :: c)) eqn:V.
      * rewrite Mono by congruence. rewrite V. destruct P as (f & P & F). exists f, [IoData (x :: c)], input. split; [reflexivity|]. split.
        { destruct n; cbn [au_next app]; rewrite P; reflexivity. }
        unfold received. cbn [map concat]. rewrite app_nil_r. auto.
      * rewrite Mono by congruence. rewrite V. destruct P as (e & f & P). exists e, f, [IoData (x :: c)], input. split; [reflexivity|]. split.
        { destruct n; cbn [au_next app]; rewrite P; reflexivity. }
        unfold received. cbn [map concat]. rewrite app_nil_r. auto.
      * specialize (IH n (b ++ x :: c) post ltac:(lia) V Hd'). cbn [app]. rewrite (next_poll _ _ _ _ _ P).
        destruct (server_says ((b ++ x :: c) ++ received input)).
        -- destruct IH as (f & used & rest & -> & H1 & H2 & H3). exists f, (IoData (x :: c) :: used), rest. rewrite received_cons, app_assoc. auto.
        -- destruct IH as (e & f & used & rest & -> & H1 & H2). exists e, f, (IoData (x :: c) :: used), rest. rewrite received_cons, app_assoc. auto.
        -- exact IH.
    + change (received (IoPending :: input)) with (received input). destruct n as [|n]; [lia|]. specialize (IH n b post ltac:(lia) Hb Hd'). cbn [app].
      assert (E : au_next (S n) (cst b) (IoPending :: input ++ post) = au_next n (cst b) (input ++ post)).
      { cbn [au_next]. rewrite poll_pending by exact Hb. destruct (input ++ post) as [|j l]; [|reflexivity]. destruct n; reflexivity. }
      rewrite E. destruct (server_says (b ++ received input)).
      * destruct IH as (f & used & rest & -> & H1 & H2 & H3). exists f, (IoPending :: used), rest. auto.
      * destruct IH as (e & f & used & rest & -> & H1 & H2). exists e, f, (IoPending :: used), rest. auto.
      * exact IH.
Qed.

Lemma next_ending b e more m : server_says b = NoVerdict -> (e = StillOpen -> more = []) ->
  cl_of (fst (fst (au_next m (cst b) (ending_io e ++ more)))) = match e with StillOpen => ClRunning | _ => ClErr end.
Proof.
  intros Hb Hm. destruct e; cbn [ending_io app].
  - rewrite Hm by reflexivity. destruct m; reflexivity.
  - assert (E : exists r f, framed_poll au_decode AUIo (cst b) (IoData [] :: more) = (r, f, more) /\ cl_of r = ClErr /\ r <> PPending).
    { change (framed_poll au_decode AUIo (cst b) (IoData [] :: more)) with (framed_poll au_decode AUIo (mkFramed AUAck b true true false) more).
      rewrite framed_poll_unfold. unfold framed_front. cbn [fr_errored fr_readable fr_eof fr_codec fr_buf]. pose proof (decode_says b) as H. rewrite Hb in H. rewrite H.
      destruct b; (eexists; eexists; split; [reflexivity|]; split; [reflexivity|discriminate]). }
    destruct E as (r & f & E & R & Np). destruct m; cbn [au_next]; rewrite E; destruct r; try exact R; congruence.
  - assert (E : exists f, framed_poll au_decode AUIo (cst b) (IoErr :: more) = (PFail AUIo, f, more)) by (eexists; reflexivity).
    destruct E as (f & E). destruct m; cbn [au_next]; rewrite E; reflexivity.
Qed.

(** The outcome of the client's handshake. *)
Lemma auth_client_outcome t input e more : Forall delivery input -> (e = StillOpen -> more = []) ->
  exists rest, auth_client (Some t) true (input ++ ending_io e ++ more) = (cl_says (received input) e, fst (au_encode au_client (AuthM t)), rest).
Proof.
  intros Hd Hm. rewrite auth_client_next. pose proof (next_client input (length (input ++ ending_io e ++ more)) [] (ending_io e ++ more) (le_n _) eq_refl Hd) as H.
  cbn [app] in H. unfold cl_says. destruct (server_says (received input)) eqn:V.
  - destruct H as (f & used & rest & E & H & _). rewrite H. eexists; reflexivity.
  - destruct H as (x & f & used & rest & E & H & _). rewrite H. eexists; reflexivity.
  - destruct H as (m & _ & H). rewrite H. pose proof (next_ending (received input) e more m V Hm) as N.
    destruct (au_next m (cst (received input)) (ending_io e ++ more)) as [[r f] rest]. cbn [fst] in N. rewrite N. eexists; reflexivity.
Qed.

(** Acknowledged: nothing after the acknowledgement has been read if it is the last that was delivered. *)
Lemma auth_client_rest t input post v : Forall delivery input -> received input = [x01; v] -> v <> x00 ->
  exists rest, auth_client (Some t) true (input ++ post) = (ClOk, fst (au_encode au_client (AuthM t)), rest ++ post) /\ received rest = [].
Proof.
  intros Hd Hr Hv. rewrite auth_client_next. pose proof (next_client input (length (input ++ post)) [] post (le_n _) eq_refl Hd) as H. cbn [app] in H.
  assert (V : server_says (received input) = Acked) by (rewrite Hr; cbn [server_says]; change (Byte.eqb x01 x01) with true; destruct (byte_eqb_spec v x00); [contradiction|reflexivity]).
  rewrite V in H. destruct H as (f & used & rest & E & H & H2 & H3). rewrite H. exists rest. split; [reflexivity|].
  rewrite E, received_app in Hr. destruct (received used) as [|a [|b u]] eqn:U; try discriminate. cbn in Hr. injection Hr as _ _ Hr. destruct u; [exact Hr|discriminate].
Qed.

(** The same in general: the bytes read but not used are lost. *)
Lemma auth_client_ok t b input w rest : auth_client (Some t) b input = (ClOk, w, rest) ->
  b = true /\ w = fst (au_encode au_client (AuthM t)) /\ exists used v lost, input = used ++ rest /\ received used = x01 :: v :: lost /\ v <> x00.
Proof.
  destruct b; [|unfold auth_client; destruct (au_encode _ _); discriminate]. rewrite auth_client_next.
  destruct (au_next (length input) (cst []) input) as [[r f] rst] eqn:Nx. apply (au_next_acc _ AUAck) in Nx; [|reflexivity|reflexivity].
  destruct Nx as (used & E & H). intros X. injection X as X1 <- <-. destruct r as [[| |]| | | |]; try discriminate. cbn [cst fr_buf app] in H. destruct H as (s' & H & _).
  split; [reflexivity|]. split; [reflexivity|]. pose proof (decode_says (received used)) as Q. destruct (server_says (received used)) eqn:V.
  - destruct (received used) as [|x [|v u]] eqn:U; try discriminate. cbn [server_says] in V. destruct (byte_eqb_spec x x01) as [->|]; [|discriminate].
    destruct (byte_eqb_spec v x00) as [|Hv]; [discriminate|]. exists used, v, u. auto.
  - destruct Q as (? & ? & Q). congruence.
  - congruence.
Qed.

Lemma auth_client_no_panic t b input w rest : auth_client t b input <> (ClPanic, w, rest).
Proof.
  destruct t as [t|]; [|unfold auth_client; congruence]. destruct b; [|unfold auth_client; destruct (au_encode _ _); discriminate]. rewrite auth_client_next.
  destruct (au_next (length input) (cst []) input) as [[r f] rst] eqn:Nx. apply (au_next_acc _ AUAck) in Nx; [|reflexivity|reflexivity].
  destruct Nx as (used & E & H). intros X. injection X as X1 _ _. destruct r as [[| |]| | | |]; try discriminate. cbn [cst fr_buf app] in H.
  pose proof (decode_says (received used)) as Q. destruct (server_says (received used)); [congruence|destruct Q as (? & ? & Q); congruence|congruence].
Qed.

(** ** The server *)
Lemma app_same_len {A} : forall (a b c d : list A), a ++ b = c ++ d -> length a = length c -> a = c /\ b = d.
Proof. induction a as [|x a IH]; intros b [|y c] d E L; try discriminate; [auto|]. cbn in E. injection E as -> E. destruct (IH _ _ _ E) as [-> ->]; [now injection L|auto]. Qed.

Lemma poll_extend : forall input f r f' rest post, framed_poll au_decode AUIo f input = (r, f', rest) -> r <> PPending \/ rest <> [] ->
  framed_poll au_decode AUIo f (input ++ post) = (r, f', rest ++ post).
Proof.
  induction input as [|i input IH]; intros f r f' rest post; rewrite !framed_poll_unfold; destruct (framed_front au_decode AUIo f) as [[x|] g] eqn:E.
  - intros H _. inversion H; subst. reflexivity.
  - intros H [N|N]; inversion H; subst; congruence.
  - intros H _. inversion H; subst. reflexivity.
  - cbn [app]. destruct i as [[|x c]| |].
    + destruct (fr_eof g); [intros H _; inversion H; subst; reflexivity|apply IH].
    + apply IH.
    + intros H _. inversion H; subst. reflexivity.
    + intros H _. inversion H; subst. reflexivity.
Qed.

Lemma next_extend : forall n k f input m f' rest post, au_next n f input = (PItem m, f', rest) -> au_next (n + k) f (input ++ post) = (PItem m, f', rest ++ post).
Proof.
  induction n as [|n IH]; intros k f input m f' rest post H; cbn [au_next] in H; destruct (framed_poll au_decode AUIo f input) as [[r g] l] eqn:P.
  - assert (Y : (r, g, l) = (PItem m, f', rest)) by (destruct r; try exact H; destruct l; exact H). inversion Y; subst.
    apply (poll_extend _ _ _ _ _ post) in P; [|left; discriminate]. destruct (0 + k)%nat; cbn [au_next]; rewrite P; reflexivity.
  - assert (Done : r <> PPending -> (r, g, l) = (PItem m, f', rest)) by (destruct r; intros; try exact H; congruence).
    destruct r as [y| | | |]; try (specialize (Done ltac:(discriminate)); inversion Done; subst; fail).
    + specialize (Done ltac:(discriminate)). inversion Done; subst. apply (poll_extend _ _ _ _ _ post) in P; [|left; discriminate].
      cbn [plus au_next]. rewrite P. reflexivity.
    + destruct l as [|i l]; [discriminate|]. apply (poll_extend _ _ _ _ _ post) in P; [|right; discriminate]. cbn [plus au_next]. rewrite P. cbn [app].
      change (i :: l ++ post) with ((i :: l) ++ post). apply IH. exact H.
Qed.

Lemma auth_server_rest a token frame pre post : auth_frame token frame -> Forall delivery pre -> received pre = frame ->
  existsb (fatal_cut (blen token)) (cuts 0 pre) = false -> a token = true ->
  exists rest, auth_server a true (pre ++ post) = (AuthOk token, [x01; x01], rest ++ post) /\ received rest = [].
Proof.
  intros Hf Hd Hr Hc Ha. pose proof (au_handshake token frame pre (length pre + 1) Hf Hd Hr (le_n _)) as H. rewrite Hc in H.
  apply (au_next_observed _ (length pre)) in H; [|lia]. destruct H as (f & rest & H). pose proof (next_extend _ (length post) _ _ _ _ _ post H) as H'.
  unfold auth_server. rewrite app_length, H', Ha. exists rest. apply (au_next_acc _ AUReceive) in H; [|reflexivity|reflexivity].
  destruct H as (used & E & s' & H & Hs). cbn [framed_new fr_buf app] in H. apply au_rcv_msg in H. destruct H as (id & fr2 & Q & -> & Hf2 & Hu). split; [rewrite Hs; reflexivity|].
  injection Q as <-. assert (fr2 = frame).
  { destruct Hf as (p & [L1 V1] & ->), Hf2 as (p2 & [L2 V2] & ->). f_equal. f_equal.
    rewrite E, received_app, Hu in Hr. cbn [app] in Hr. injection Hr as Hr. rewrite <- !app_assoc in Hr. apply app_same_len in Hr; [|congruence]. apply Hr. }
  subst fr2. rewrite E, received_app, Hu in Hr. rewrite <- app_assoc in Hr. rewrite <- (app_nil_r frame) in Hr at 2. apply app_inv_head in Hr.
  apply app_eq_nil in Hr. apply Hr.
Qed.
