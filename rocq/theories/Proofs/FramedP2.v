(** `Framed`: byte conservation and persistence of errors, for arbitrary transport behaviour. *)
From Coq Require Import ZArith.
From Verif Require Import Model.Base Model.Framed Spec.Stream Proofs.BaseP Proofs.FramedP.
Local Open Scope nat_scope.

Lemma framed_poll_unfold {S M E} (decode : S -> bytes -> dres S M E) io_err g inp :
  framed_poll decode io_err g inp =
  match framed_front decode io_err g with
  | (Some r, f') => (r, f', inp)
  | (None, f') =>
    match inp with
    | [] => (PPending, f', [])
    | IoPending :: rest => (PPending, f', rest)
    | IoErr :: rest =>
      (PFail io_err, mkFramed (fr_codec f') (fr_buf f') (fr_readable f') (fr_eof f') true, rest)
    | IoData [] :: rest =>
      if fr_eof f' then (PEnd, f', rest)
      else framed_poll decode io_err (mkFramed (fr_codec f') (fr_buf f') true true (fr_errored f')) rest
    | IoData (x :: c) :: rest =>
      framed_poll decode io_err (mkFramed (fr_codec f') (fr_buf f' ++ x :: c) true false (fr_errored f')) rest
    end
  end.
Proof. destruct inp; reflexivity. Qed.

Section Conserve.
Context {S M E : Type}.
Variable decode : S -> bytes -> dres S M E.
Variable io_err : E.
Variable ok : S -> Prop.
Variable held : S -> bytes.
Variable enc : M -> bytes.

Definition conserving : Prop := forall s b, ok s ->
  match decode s b with
  | DNone s' r => ok s' /\ held s ++ b = held s' ++ r
  | DMsg m s' r => ok s' /\ held s ++ b = enc m ++ held s' ++ r
  | DErr _ s' r => ok s' /\ held s ++ b = held s' ++ r
  | DPanic => False
  end.

Hypothesis CONS : conserving.

Definition item_bytes (r : polled M E) : bytes := match r with PItem m => enc m | _ => [] end.

Lemma front_conserve f : ok (fr_codec f) ->
  match framed_front decode io_err f with
  | (Some r, f') => r <> PPanic /\ ok (fr_codec f') /\
      held (fr_codec f) ++ fr_buf f = item_bytes r ++ held (fr_codec f') ++ fr_buf f'
  | (None, f') => ok (fr_codec f') /\ held (fr_codec f) ++ fr_buf f = held (fr_codec f') ++ fr_buf f'
  end.
Proof.
  intros Hok. unfold framed_front.
  pose proof (CONS (fr_codec f) (fr_buf f) Hok) as C.
  destruct (fr_errored f); [cbn; repeat split; auto; discriminate|].
  destruct (fr_readable f); [|auto].
  destruct (fr_eof f); destruct (decode (fr_codec f) (fr_buf f)) as [s r|m s r|e s r|]; try contradiction;
    destruct C as [H1 H2]; try (cbn; repeat split; auto; discriminate).
  destruct r as [|x r]; cbn; repeat split; auto; discriminate.
Qed.

Lemma poll_conserve input : forall f, ok (fr_codec f) ->
  let '(r, f', i') := framed_poll decode io_err f input in
  r <> PPanic /\ ok (fr_codec f') /\ 
  held (fr_codec f) ++ fr_buf f ++ received input
  = item_bytes r ++ held (fr_codec f') ++ fr_buf f' ++ received i'.
Proof.
  induction input as [|i input IH]; intros f Hok; rewrite framed_poll_unfold;
    pose proof (front_conserve f Hok) as FC;
    destruct (framed_front decode io_err f) as [[r|] f']; 
    try (destruct FC as (H1 & H2 & H3); repeat split; auto;
         rewrite !app_assoc in *; rewrite H3; reflexivity);
    destruct FC as (H2 & H3).
  - cbn. repeat split; auto; try discriminate. rewrite !app_nil_r. exact H3.
  - destruct i as [[|x c]| |].
    + destruct (fr_eof f').
      * cbn. repeat split; auto; try discriminate. rewrite !app_assoc in *. rewrite H3. reflexivity.
      * specialize (IH (mkFramed (fr_codec f') (fr_buf f') true true (fr_errored f')) H2).
        destruct (framed_poll decode io_err _ input) as [[r f2] i2]. cbn in IH.
        destruct IH as (A & B & C). repeat split; auto.
        rewrite received_cons. cbn [app]. rewrite <- C. rewrite !app_assoc in *. rewrite H3. reflexivity.
    + specialize (IH (mkFramed (fr_codec f') (fr_buf f' ++ x :: c) true false (fr_errored f')) H2).
      destruct (framed_poll decode io_err _ input) as [[r f2] i2]. cbn [fr_codec fr_buf] in IH.
      destruct IH as (A & B & C). repeat split; auto.
      rewrite received_cons. rewrite <- C. rewrite !app_assoc in *. rewrite H3. reflexivity.
    + repeat split; auto; try discriminate.
      rewrite received_cons. cbn [item_bytes app]. rewrite !app_assoc in *. rewrite H3. reflexivity.
    + repeat split; auto; try discriminate.
      rewrite received_cons. cbn [item_bytes app fr_codec fr_buf]. rewrite !app_assoc in *. rewrite H3. reflexivity.
Qed.

Lemma polls_conserve n : forall f input, ok (fr_codec f) ->
  let '(rs, f', i') := framed_polls decode io_err n f input in
  ~ In PPanic rs /\ ok (fr_codec f') /\
  held (fr_codec f) ++ fr_buf f ++ received input
  = concat (map enc (items rs)) ++ held (fr_codec f') ++ fr_buf f' ++ received i'.
Proof.
  induction n as [|n IH]; intros f input Hok; cbn [framed_polls].
  - cbn. auto.
  - pose proof (poll_conserve input f Hok) as P.
    destruct (framed_poll decode io_err f input) as [[r f1] i1]. destruct P as (P1 & P2 & P3).
    specialize (IH f1 i1 P2).
    destruct (framed_polls decode io_err n f1 i1) as [[rs f2] i2]. destruct IH as (I1 & I2 & I3).
    repeat split; auto.
    + intros [X|X]; auto.
    + rewrite P3, I3. destruct r; cbn; rewrite ?app_assoc; reflexivity.
Qed.
End Conserve.

Section Sticky.
Context {S M E : Type}.
Variable decode : S -> bytes -> dres S M E.
Variable io_err : E.

(** the decoder refuses what is buffered, whatever follows *)
Definition stuck (f : framed S) : Prop :=
  exists e, forall x, decode (fr_codec f) (fr_buf f ++ x) = DErr e (fr_codec f) (fr_buf f ++ x).

Lemma stuck_poll input : forall f, stuck f ->
  let '(r, f', i') := framed_poll decode io_err f input in
  stuck f' /\ (forall m, r <> PItem m) /\ fr_codec f' = fr_codec f /\ prefix_of (fr_buf f) (fr_buf f').
Proof.
  assert (FR : forall f, stuck f ->
     match framed_front decode io_err f with
     | (Some r, f') => (forall m, r <> PItem m) /\ fr_codec f' = fr_codec f /\ fr_buf f' = fr_buf f
     | (None, f') => fr_codec f' = fr_codec f /\ fr_buf f' = fr_buf f
     end).
  { intros f [e H]. specialize (H []). rewrite app_nil_r in H. unfold framed_front. rewrite H.
    destruct (fr_errored f), (fr_readable f), (fr_eof f); cbn; repeat split; auto; discriminate. }
  assert (ST : forall f f', stuck f -> fr_codec f' = fr_codec f -> prefix_of (fr_buf f) (fr_buf f') -> stuck f').
  { intros f f' [e H] Hc [q Hq]. exists e. intros x. rewrite Hc, Hq, <- app_assoc. apply H. }
  assert (PR : forall (a : bytes), prefix_of a a) by (intros a; exists []; symmetry; apply app_nil_r).
  assert (SOME : forall f r f', stuck f -> framed_front decode io_err f = (Some r, f') ->
     stuck f' /\ (forall m, r <> PItem m) /\ fr_codec f' = fr_codec f /\ prefix_of (fr_buf f) (fr_buf f')).
  { intros f r f' Hs Hf. pose proof (FR f Hs) as F. rewrite Hf in F. destruct F as (A & B & C).
    repeat split; auto.
    - eapply ST; eauto. rewrite C; apply PR.
    - rewrite C; apply PR. }
  assert (NONE : forall f f', stuck f -> framed_front decode io_err f = (None, f') ->
     stuck f' /\ fr_codec f' = fr_codec f /\ fr_buf f' = fr_buf f).
  { intros f f' Hs Hf. pose proof (FR f Hs) as F. rewrite Hf in F. destruct F as (B & C).
    repeat split; auto. eapply ST; eauto. rewrite C; apply PR. }
  induction input as [|i input IH]; intros f Hs; rewrite framed_poll_unfold;
    destruct (framed_front decode io_err f) as [[r|] f'] eqn:Hf;
    try (exact (SOME _ _ _ Hs Hf));
    destruct (NONE _ _ Hs Hf) as (N1 & N2 & N3).
  - repeat split; auto; try discriminate. rewrite N3; apply PR.
  - destruct i as [[|x c]| |].
    + destruct (fr_eof f').
      * repeat split; auto; try discriminate. rewrite N3; apply PR.
      * set (g := mkFramed (fr_codec f') (fr_buf f') true true (fr_errored f')).
        assert (Hg : stuck g) by (eapply ST; [exact N1|reflexivity|apply PR]).
        specialize (IH g Hg). destruct (framed_poll decode io_err g input) as [[r f2] i2].
        destruct IH as (A & B & C & D). repeat split; auto.
        -- rewrite C. exact N2.
        -- rewrite <- N3. exact D.
    + set (g := mkFramed (fr_codec f') (fr_buf f' ++ x :: c) true false (fr_errored f')).
      assert (Hg : stuck g) by (eapply ST; [exact N1|reflexivity|exists (x :: c); reflexivity]).
      specialize (IH g Hg). destruct (framed_poll decode io_err g input) as [[r f2] i2].
      destruct IH as (A & B & C & [q D]). repeat split; auto.
      -- rewrite C. exact N2.
      -- cbn in D. rewrite <- N3. exists ((x :: c) ++ q). rewrite D, app_assoc. reflexivity.
    + repeat split; auto; try discriminate. rewrite N3; apply PR.
    + splits; cbn [fr_codec fr_buf]; auto; try discriminate.
      rewrite N3; apply PR.
Qed.

Lemma stuck_polls n : forall f input, stuck f ->
  let '(rs, f', _) := framed_polls decode io_err n f input in
  items rs = [] /\ stuck f' /\ fr_codec f' = fr_codec f /\ prefix_of (fr_buf f) (fr_buf f').
Proof.
  induction n as [|n IH]; intros f input Hs; cbn [framed_polls].
  - repeat split; auto. exists []. symmetry; apply app_nil_r.
  - pose proof (stuck_poll input f Hs) as P.
    destruct (framed_poll decode io_err f input) as [[r f1] i1]. destruct P as (P1 & P2 & P3 & [q P4]).
    specialize (IH f1 i1 P1). destruct (framed_polls decode io_err n f1 i1) as [[rs f2] i2].
    destruct IH as (I1 & I2 & I3 & [q' I4]). repeat split; auto.
    + destruct r; cbn; auto. exfalso; eapply P2; reflexivity.
    + congruence.
    + exists (q ++ q'). rewrite I4, P4, app_assoc. reflexivity.
Qed.

Variable ok : S -> Prop.
Variable w : S -> nat.
Hypothesis INC : incremental decode ok w.
Hypothesis ERR : forall s b e s' r, ok s -> decode s b = DErr e s' r -> s' = s /\ r = b.

(** a stream that turns bad: after the error no message is ever produced *)
Lemma bad_poll : forall body f ms t en, Inv decode ok f body ms t ->
  let '(r, f', i') := framed_poll decode io_err f (body ++ ending_io en) in
  match r with
  | PItem m => exists ms' body', ms = m :: ms' /\ i' = body' ++ ending_io en /\ Inv decode ok f' body' ms' t
  | PPending => exists body', i' = body' ++ ending_io en /\ Inv decode ok f' body' ms t
  | PFail _ | PEnd => forall e s r, t = TBad e s r -> stuck f'
  | PPanic => False
  end.
Proof.
  assert (FR : forall f body ms t (en : ending), Inv decode ok f body ms t ->
    match framed_front decode io_err f with
    | (Some (PItem m), f') => exists ms', ms = m :: ms' /\ Inv decode ok f' body ms' t
    | (Some (PFail _), f') => stuck f'
    | (Some _, _) => False
    | (None, f') => fr_readable f' = false /\ Inv decode ok f' body ms t
    end).
  { intros f body ms t en HI.
    destruct (front_inv decode io_err ok w INC _ _ _ _ HI) as
      [(m & ms' & f' & Hf & -> & HI')|[(e & s & r & f' & Hf & -> & ->)|(f' & Hf & Hr & HI')]]; rewrite Hf.
    - eauto.
    - destruct HI as (Hok & He & Heof & _).
      unfold framed_front in Hf. rewrite He, Heof in Hf.
      destruct (fr_readable f); [|discriminate].
      destruct (decode (fr_codec f) (fr_buf f)) as [? ?|? ? ?|? ? ?|] eqn:D; inversion Hf; subst; clear Hf.
      destruct (ERR _ _ _ _ _ Hok D) as [-> ->].
      eexists; cbn. apply (inc_err _ _ _ INC _ _ _ _ _ Hok D).
    - auto. }
  induction body as [|i body IH]; intros f ms t en HI; rewrite framed_poll_unfold;
    pose proof (FR f _ ms t en HI) as F;
    destruct (framed_front decode io_err f) as [[[m|e| | |]|] f'] eqn:Hf; try contradiction.
  - destruct F as (ms' & -> & HI'). exists ms', []. auto.
  - auto.
  - destruct F as (Hr & HI'). cbn [app].
    destruct en; cbn [ending_io].
    + exists []. auto.
    + destruct HI' as (Hok & He & Heof & Hb & Hst & Hrd). specialize (Hrd Hr).
      rewrite Heof. rewrite framed_poll_unfold. unfold framed_front; cbn [fr_errored fr_readable fr_eof fr_codec fr_buf].
      rewrite He, Hrd.
      cbn in Hst. rewrite app_nil_r in Hst.
      destruct (fr_buf f'); intros ? ? ? ->; exfalso; inversion Hst; congruence.
    + destruct HI' as (Hok & He & Heof & Hb & Hst & Hrd). specialize (Hrd Hr).
      cbn in Hst. rewrite app_nil_r in Hst.
      intros ? ? ? ->; exfalso; inversion Hst; congruence.
  - destruct F as (ms' & -> & HI'). exists ms', (i :: body). auto.
  - auto.
  - destruct F as (Hr & HI'). cbn [app].
    destruct HI' as (Hok & He & Heof & Hb & Hst & Hrd).
    inversion Hb as [|? ? Hi Hb']; subst.
    destruct i as [[|x c]| |]; cbn in Hi; try contradiction.
    + set (g := mkFramed (fr_codec f') (fr_buf f' ++ x :: c) true false (fr_errored f')).
      assert (HIg : Inv decode ok g body ms t).
      { splits; cbn; auto.
        - rewrite <- app_assoc. exact Hst.
        - intros X; discriminate X. }
      exact (IH g ms t en HIg).
    + exists body. split; [reflexivity|]. splits; auto.
Qed.

Lemma bad_polls n : forall f body ms e s r en, Inv decode ok f body ms (TBad e s r) ->
  prefix_of (items (fst (fst (framed_polls decode io_err n f (body ++ ending_io en))))) ms.
Proof.
  induction n as [|n IH]; intros f body ms e s r en HI; cbn [framed_polls].
  - exists ms. reflexivity.
  - pose proof (bad_poll body f ms _ en HI) as P.
    destruct (framed_poll decode io_err f (body ++ ending_io en)) as [[p f1] i1].
    destruct p as [m|x| | |].
    + destruct P as (ms' & body' & -> & -> & HI'). specialize (IH f1 body' ms' e s r en HI').
      destruct (framed_polls decode io_err n f1 (body' ++ ending_io en)) as [[rs f2] i2]. cbn in IH |- *.
      destruct IH as [q ->]. exists q. reflexivity.
    + specialize (P _ _ _ eq_refl). pose proof (stuck_polls n f1 i1 P) as Q.
      destruct (framed_polls decode io_err n f1 i1) as [[rs f2] i2]. destruct Q as [Q _]. change (prefix_of (items rs) ms). rewrite Q. exists ms; reflexivity.
    + specialize (P _ _ _ eq_refl). pose proof (stuck_polls n f1 i1 P) as Q.
      destruct (framed_polls decode io_err n f1 i1) as [[rs f2] i2]. destruct Q as [Q _]. change (prefix_of (items rs) ms). rewrite Q. exists ms; reflexivity.
    + destruct P as (body' & -> & HI'). specialize (IH f1 body' ms e s r en HI').
      destruct (framed_polls decode io_err n f1 (body' ++ ending_io en)) as [[rs f2] i2]. exact IH.
    + contradiction.
Qed.
End Sticky.
