(** The handshakes: what was read when they succeed. *)
From Coq Require Import ZArith ZifyBool ZifyNat ZifyN.
From Verif Require Import Model.Base Model.Framed Model.WireAuth Model.Handshake Spec.Wire Spec.Stream Spec.AuthCuts
  Proofs.BaseP Proofs.FramedP Proofs.FramedP2 Proofs.AuthP.
Local Open Scope N_scope.

Lemma au_none_same s b s' r : au_decode s b = DNone s' r -> s' = s /\ r = b.
Proof.
  destruct s; unfold au_decode.
  - destruct b as [|x b]; [intros H; inversion H; auto|]. change (index (x :: b) 0) with (Some x). cbv iota. destruct (negb _); [discriminate|].
    destruct (_ <? 4); [intros H; inversion H; auto|].
    destruct (index (x :: b) 1), (index (x :: b) 2), (index (x :: b) 3), (index (x :: b) 4); try discriminate. cbv zeta.
    match goal with |- context [if ?c then _ else _] => destruct c; [intros H; inversion H; auto|] end.
    destruct (split_to 1 (x :: b)) as [[? src1]|]; [|discriminate]. destruct (split_to 4 src1) as [[? src2]|]; [|discriminate].
    match goal with |- context [split_to ?n src2] => destruct (split_to n src2) as [[? ?]|]; discriminate end.
  - destruct (_ <? 2); [intros H; inversion H; auto|]. destruct (index b 0); [|discriminate]. destruct (negb _); [discriminate|].
    destruct (split_to 1 b) as [[? src1]|]; [|discriminate]. destruct (split_to 1 src1) as [[? src2]|]; [|discriminate]. destruct (_ =? 0); discriminate.
Qed.

Lemma au_poll_acc : forall input s f r f' rest, fr_codec f = s -> fr_errored f = false ->
  framed_poll au_decode AUIo f input = (r, f', rest) ->
  exists used, input = used ++ rest /\
    match r with
    | PItem m => exists s', au_decode s (fr_buf f ++ received used) = DMsg m s' (fr_buf f') /\ fr_codec f' = s'
    | PPending => fr_codec f' = s /\ fr_errored f' = false /\ fr_buf f' = fr_buf f ++ received used
    | PPanic => au_decode s (fr_buf f ++ received used) = DPanic
    | _ => True
    end.
Proof.
  induction input as [|i input IH]; intros s f r f' rest Hc He; rewrite framed_poll_unfold; unfold framed_front; rewrite He, Hc.
  - destruct (fr_readable f).
    + destruct (fr_eof f); destruct (au_decode s (fr_buf f)) as [s' b|m s' b|e s' b|] eqn:Dc.
      * destruct b; intros H; inversion H; subst; exists []; split; reflexivity || exact I.
      * intros H; inversion H; subst. exists []. split; [reflexivity|]. cbn. rewrite app_nil_r. eauto.
      * intros H; inversion H; subst. exists []; split; reflexivity || exact I.
      * intros H; inversion H; subst. exists []. split; [reflexivity|]. cbn. rewrite app_nil_r. exact Dc.
      * apply au_none_same in Dc as [-> ->]. intros H; inversion H; subst. exists []. split; [reflexivity|]. cbn. rewrite app_nil_r. auto.
      * intros H; inversion H; subst. exists []. split; [reflexivity|]. cbn. rewrite app_nil_r. eauto.
      * intros H; inversion H; subst. exists []; split; reflexivity || exact I.
      * intros H; inversion H; subst. exists []. split; [reflexivity|]. cbn. rewrite app_nil_r. exact Dc.
    + intros H; inversion H; subst. exists []. split; [reflexivity|]. cbn. rewrite app_nil_r. auto.
  - assert (Read : forall g, fr_codec g = s -> fr_errored g = false -> fr_buf g = fr_buf f ->
      match i with
      | IoPending => (PPending, g, input)
      | IoErr => (PFail AUIo, mkFramed (fr_codec g) (fr_buf g) (fr_readable g) (fr_eof g) true, input)
      | IoData [] => if fr_eof g then (PEnd, g, input) else framed_poll au_decode AUIo (mkFramed (fr_codec g) (fr_buf g) true true (fr_errored g)) input
      | IoData (x :: c) => framed_poll au_decode AUIo (mkFramed (fr_codec g) (fr_buf g ++ x :: c) true false (fr_errored g)) input
      end = (r, f', rest) ->
      exists used, i :: input = used ++ rest /\
      match r with
      | PItem m => exists s', au_decode s (fr_buf f ++ received used) = DMsg m s' (fr_buf f') /\ fr_codec f' = s'
      | PPending => fr_codec f' = s /\ fr_errored f' = false /\ fr_buf f' = fr_buf f ++ received used
      | PPanic => au_decode s (fr_buf f ++ received used) = DPanic
      | _ => True
      end).
    { intros g G1 G2 G3. destruct i as [[|x c]| |].
      - destruct (fr_eof g).
        + intros H; inversion H; subst. exists [IoData []]. split; [reflexivity|exact I].
        + intros H. apply (IH s) in H; [|exact G1|exact G2]. destruct H as (used & -> & H). exists (IoData [] :: used). split; [reflexivity|].
          cbn [fr_buf] in H. rewrite G3 in H. exact H.
      - intros H. apply (IH s) in H; [|exact G1|exact G2]. destruct H as (used & -> & H). exists (IoData (x :: c) :: used). split; [reflexivity|].
        cbn [fr_buf] in H. rewrite G3 in H. rewrite received_cons. rewrite <- app_assoc in H. exact H.
      - intros H; inversion H; subst. exists [IoPending]. split; [reflexivity|]. cbn. rewrite app_nil_r. auto.
      - intros H; inversion H; subst. exists [IoErr]. split; [reflexivity|exact I]. }
    destruct (fr_readable f).
    + destruct (fr_eof f); destruct (au_decode s (fr_buf f)) as [s' b|m s' b|e s' b|] eqn:Dc.
      * destruct b; intros H; inversion H; subst; exists []; split; reflexivity || exact I.
      * intros H; inversion H; subst. exists []. split; [reflexivity|]. cbn. rewrite app_nil_r. eauto.
      * intros H; inversion H; subst. exists []; split; reflexivity || exact I.
      * intros H; inversion H; subst. exists []. split; [reflexivity|]. cbn. rewrite app_nil_r. exact Dc.
      * apply au_none_same in Dc as [-> ->]. apply Read; reflexivity.
      * intros H; inversion H; subst. exists []. split; [reflexivity|]. cbn. rewrite app_nil_r. eauto.
      * intros H; inversion H; subst. exists []; split; reflexivity || exact I.
      * intros H; inversion H; subst. exists []. split; [reflexivity|]. cbn. rewrite app_nil_r. exact Dc.
    + apply Read; auto.
Qed.

Lemma received_app a b : received (a ++ b) = received a ++ received b.
Proof. unfold received. rewrite map_app, concat_app. reflexivity. Qed.

Lemma au_next_acc : forall n s f input r f' rest, fr_codec f = s -> fr_errored f = false ->
  au_next n f input = (r, f', rest) ->
  exists used, input = used ++ rest /\
    match r with
    | PItem m => exists s', au_decode s (fr_buf f ++ received used) = DMsg m s' (fr_buf f') /\ fr_codec f' = s'
    | PPending => fr_codec f' = s /\ fr_errored f' = false /\ fr_buf f' = fr_buf f ++ received used
    | PPanic => au_decode s (fr_buf f ++ received used) = DPanic
    | _ => True
    end.
Proof.
  induction n as [|n IH]; intros s f input r f' rest Hc He; cbn [au_next];
    destruct (framed_poll au_decode AUIo f input) as [[r1 f1] rest1] eqn:P; pose proof (au_poll_acc _ _ _ _ _ _ Hc He P) as (used & E & H).
  - intros X. assert (Y : (r1, f1, rest1) = (r, f', rest)) by (destruct r1; try exact X; destruct rest1; exact X).
    inversion Y; subst. exists used. auto.
  - destruct r1 as [m|e| | |]; try (intros X; inversion X; subst; exists used; split; [reflexivity|exact H]).
    destruct rest1 as [|i rest1]; [intros X; inversion X; subst; exists used; split; [reflexivity|exact H]|].
    intros X. destruct H as (H1 & H2 & H3). apply (IH s) in X; [|exact H1|exact H2]. destruct X as (used2 & E2 & X).
    exists (used ++ used2). split; [rewrite <- app_assoc, <- E2; exact E|]. rewrite received_app, app_assoc, <- H3. exact X.
Qed.

(** Decoding an auth message on the server. *)
Lemma au_rcv_msg b m s' r : au_decode AUReceive b = DMsg m s' r -> exists id frame, m = AuthM id /\ s' = AUAck /\ auth_frame id frame /\ b = frame ++ r.
Proof.
  destruct b as [|x b]; [discriminate|]. intros Dc.
  destruct (byte_eqb_spec x x01) as [->|Hx]; [|rewrite au_rcv_foreign in Dc by exact Hx; discriminate].
  destruct (N.lt_ge_cases (blen (x01 :: b)) 4) as [H4|H4]; [rewrite au_rcv_short in Dc by exact H4; discriminate|].
  rewrite blen_cons in H4. destruct (N.eq_dec (blen b) 3) as [H3|H3].
  { assert (length b = 3%nat) as L by (unfold blen in H3; lia). destruct b as [|a [|c [|d [|? ?]]]]; try discriminate. }
  destruct (split_to_spec 4 b ltac:(lia)) as (p & t & _ & -> & Hp). assert (Hp' : length p = 4%nat) by (unfold blen in Hp; lia).
  rewrite au_rcv_long in Dc by exact Hp'. rewrite get_be_value in Dc. destruct (_ <? _); [discriminate|].
  destruct (split_to (be_value p) t) as [[id r']|] eqn:Sp; [|discriminate]. inversion Dc; subst.
  apply split_to_inv in Sp. destruct Sp as [-> L]. exists id, (x01 :: p ++ id). split; [reflexivity|]. split; [reflexivity|]. split.
  - exists p. split; [|reflexivity]. split; [exact Hp'|]. unfold blen in L. lia.
  - cbn [app]. rewrite <- app_assoc. reflexivity.
Qed.

Lemma auth_server_ok a b input id w rest : auth_server a b input = (AuthOk id, w, rest) ->
  b = true /\ a id = true /\ w = [x01; x01] /\ exists used frame over, input = used ++ rest /\ auth_frame id frame /\ received used = frame ++ over.
Proof.
  unfold auth_server. destruct (au_next (length input) (framed_new au_server) input) as [[r f] rst] eqn:Nx.
  apply (au_next_acc _ AUReceive) in Nx; [|reflexivity|reflexivity]. destruct Nx as (used & E & H).
  destruct r as [m|e| | |]; try discriminate. cbn [framed_new fr_buf app] in H. destruct H as (s' & H & Hs).
  apply au_rcv_msg in H. destruct H as (id' & frame & -> & -> & Hf & Hu).
  destruct (a id') eqn:A; [|discriminate]. destruct b; [|discriminate]. intros X; inversion X; subst. split; [reflexivity|]. split; [exact A|].
  split; [reflexivity|]. exists used, frame, (fr_buf f). auto.
Qed.

(** A rejected client gets exactly the reject frame. *)
Lemma auth_server_err a b input w rest : auth_server a b input = (AuthErr, w, rest) -> w = [] \/ w = [x01; x00].
Proof.
  unfold auth_server. destruct (au_next (length input) (framed_new au_server) input) as [[r f] rst] eqn:Nx.
  destruct r as [m|e| | |]; try discriminate; try (intros X; inversion X; auto; fail).
  destruct m as [id| |]; [destruct (a id); [destruct b|]|..]; intros X; inversion X; subst; auto; try (destruct b; [right; reflexivity|left; reflexivity]).
Qed.

Lemma pending_stuck : forall input f f', framed_poll au_decode AUIo f input = (PPending, f', []) -> framed_poll au_decode AUIo f' [] = (PPending, f', []).
Proof.
  assert (Fr : forall f g, framed_front au_decode AUIo f = (None, g) -> framed_front au_decode AUIo g = (None, g)).
  { intros f g. unfold framed_front. destruct (fr_errored f) eqn:E; [discriminate|]. destruct (fr_readable f) eqn:R.
    - destruct (fr_eof f); destruct (au_decode (fr_codec f) (fr_buf f)) as [s' b| | |]; try discriminate.
      + destruct b; discriminate.
      + intros X; inversion X; subst. reflexivity.
    - intros X; inversion X; subst. rewrite E, R. reflexivity. }
  assert (Nf : forall f f', framed_front au_decode AUIo f <> (Some PPending, f')).
  { intros f f'. unfold framed_front. destruct (fr_errored f); [discriminate|]. destruct (fr_readable f); [|discriminate].
    destruct (fr_eof f); destruct (au_decode (fr_codec f) (fr_buf f)) as [s' b| | |]; try discriminate. destruct b; discriminate. }
  induction input as [|i input IH]; intros f f'; rewrite framed_poll_unfold; destruct (framed_front au_decode AUIo f) as [[r|] g] eqn:E.
  - intros X; inversion X; subst. exfalso. eapply Nf; eauto.
  - intros X; inversion X; subst. rewrite framed_poll_unfold, (Fr _ _ E). reflexivity.
  - intros X; inversion X.
  - destruct i as [[|x c]| |].
    + destruct (fr_eof g); [discriminate|]. apply IH.
    + apply IH.
    + intros X; inversion X; subst. rewrite framed_poll_unfold, (Fr _ _ E). reflexivity.
    + discriminate.
Qed.

Lemma stuck_observed k : forall f, framed_poll au_decode AUIo f [] = (PPending, f, []) -> observed (fst (fst (framed_polls au_decode AUIo k f []))) = [].
Proof.
  induction k as [|k IH]; intros f H; [reflexivity|]. cbn [framed_polls]. rewrite H. specialize (IH f H).
  destruct (framed_polls au_decode AUIo k f []) as [[rs f2] i2]. exact IH.
Qed.

Lemma poll_consumes : forall input f r f' rest, framed_poll au_decode AUIo f input = (r, f', rest) -> (length rest <= length input)%nat.
Proof.
  induction input as [|i input IH]; intros f r f' rest; rewrite framed_poll_unfold; destruct (framed_front au_decode AUIo f) as [[x|] g].
  - intros X; inversion X; reflexivity.
  - intros X; inversion X; reflexivity.
  - intros X; inversion X; reflexivity.
  - destruct i as [[|x c]| |].
    + destruct (fr_eof g); [intros X; inversion X; subst; cbn; lia|]. intros X. apply IH in X. cbn. lia.
    + intros X. apply IH in X. cbn. lia.
    + intros X; inversion X; subst; cbn; lia.
    + intros X; inversion X; subst; cbn; lia.
Qed.

Lemma pending_consumes : forall input f f' rest, rest <> [] -> framed_poll au_decode AUIo f input = (PPending, f', rest) -> (length rest < length input)%nat.
Proof.
  intros input f f' rest Ne H. destruct input as [|i input].
  - rewrite framed_poll_unfold in H. destruct (framed_front au_decode AUIo f) as [[x|] g]; inversion H; subst; congruence.
  - rewrite framed_poll_unfold in H. destruct (framed_front au_decode AUIo f) as [[x|] g] eqn:E.
    + exfalso. inversion H; subst. unfold framed_front in E. destruct (fr_errored f); [discriminate|]. destruct (fr_readable f); [|discriminate].
      destruct (fr_eof f); destruct (au_decode (fr_codec f) (fr_buf f)) as [s' b| | |]; try discriminate. destruct b; discriminate.
    + destruct i as [[|x c]| |].
      * destruct (fr_eof g); [discriminate|]. apply poll_consumes in H. cbn. lia.
      * apply poll_consumes in H. cbn. lia.
      * inversion H; subst. cbn; lia.
      * discriminate.
Qed.

(** `next().await` yields the first thing an observer of the polls sees. *)
Lemma au_next_observed : forall k n f input r l, (length input <= n)%nat ->
  observed (fst (fst (framed_polls au_decode AUIo k f input))) = r :: l -> exists f' rest, au_next n f input = (r, f', rest).
Proof.
  induction k as [|k IH]; intros n f input r l Hn; [discriminate|]. cbn [framed_polls].
  destruct (framed_poll au_decode AUIo f input) as [[r1 f1] rest1] eqn:P. destruct (framed_polls au_decode AUIo k f1 rest1) as [[rs f2] i2] eqn:Ps. cbn [fst].
  destruct r1 as [m|e| | |]; cbn [observed]; try (intros X; inversion X; subst; exists f1, rest1; destruct n; cbn [au_next]; rewrite P; reflexivity).
  destruct rest1 as [|i rest1].
  - intros X. exfalso. apply pending_stuck in P. apply (stuck_observed k) in P. rewrite Ps in P. cbn [fst] in P. congruence.
  - intros X. pose proof P as P'. apply pending_consumes in P; [|discriminate]. destruct n as [|n]; [cbn in P; lia|].
    destruct (IH n f1 (i :: rest1) r l) as (f' & rest & H); [cbn in *; lia|rewrite Ps; exact X|]. exists f', rest. cbn [au_next]. rewrite P'. exact H.
Qed.

(** A client presenting [token] in a well-formed frame, delivered so that the server does not panic. *)
Lemma auth_server_reads a b token frame input : auth_frame token frame -> Forall delivery input -> received input = frame ->
  existsb (fatal_cut (blen token)) (cuts 0 input) = false ->
  exists rest, auth_server a b input =
    if a token then if b then (AuthOk token, [x01; x01], rest) else (AuthErr, [], rest)
    else (AuthErr, if b then [x01; x00] else [], rest).
Proof.
  intros Hf Hd Hr Hc. pose proof (au_handshake token frame input (length input + 1) Hf Hd Hr (le_n _)) as H. rewrite Hc in H.
  apply (au_next_observed _ (length input)) in H; [|lia]. destruct H as (f & rest & H). unfold auth_server. rewrite H. exists rest.
  destruct (a token); [destruct b; reflexivity|]. reflexivity.
Qed.
