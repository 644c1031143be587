(** Generic theory of `Framed` over incremental decoders. *)
From Coq Require Import ZArith.
From Verif Require Import Model.Base Model.Framed Spec.Stream Proofs.BaseP.
Local Open Scope nat_scope.

Ltac splits := repeat match goal with |- ?G => let G' := eval hnf in G in match G' with _ /\ _ => split end end.

Section Inc.
Context {S M E : Type}.
Variable decode : S -> bytes -> dres S M E.
Variable io_err : E.
Variable ok : S -> Prop.
Variable w : S -> nat.

Record incremental : Prop := {
  inc_msg : forall s b m s' r, ok s -> decode s b = DMsg m s' r ->
      (forall x, decode s (b ++ x) = DMsg m s' (r ++ x)) /\ ok s' /\ length r + w s' < length b + w s;
  inc_err : forall s b e s' r, ok s -> decode s b = DErr e s' r ->
      (forall x, decode s (b ++ x) = DErr e s' (r ++ x)) /\ ok s';
  inc_none : forall s b s' r, ok s -> decode s b = DNone s' r ->
      (forall x, decode s (b ++ x) = decode s' (r ++ x)) /\ ok s' /\ length r + w s' <= length b + w s;
  inc_nopanic : forall s b, ok s -> decode s b <> DPanic }.

Hypothesis INC : incremental.

Inductive tail := TMore (s : S) (r : bytes) | TBad (e : E) (s : S) (r : bytes).

(** Decoding a complete byte string. *)
Inductive stream : S -> bytes -> list M -> tail -> Prop :=
| st_more s b s' r : decode s b = DNone s' r -> stream s b [] (TMore s' r)
| st_bad s b e s' r : decode s b = DErr e s' r -> stream s b [] (TBad e s' r)
| st_msg s b m s' r ms t : decode s b = DMsg m s' r -> stream s' r ms t -> stream s b (m :: ms) t.

Lemma stream_total s b : ok s -> exists ms t, stream s b ms t.
Proof.
  remember (length b + w s) as n eqn:Hn. revert s b Hn.
  induction n as [n IH] using lt_wf_ind; intros s b Hn Hok.
  destruct (decode s b) as [s' r|m s' r|e s' r|] eqn:D.
  - do 2 eexists; apply st_more; eassumption.
  - destruct (inc_msg INC _ _ _ _ _ Hok D) as (_ & Hok' & Hlt).
    destruct (IH (length r + w s') ltac:(lia) s' r eq_refl Hok') as (ms & t & H).
    do 2 eexists; eapply st_msg; eassumption.
  - do 2 eexists; eapply st_bad; eassumption.
  - exfalso; eapply inc_nopanic; eassumption.
Qed.

Lemma stream_det s b ms t ms' t' : stream s b ms t -> stream s b ms' t' -> ms = ms' /\ t = t'.
Proof.
  intros H; revert ms' t'; induction H as [s b s' r D|s b e s' r D|s b m s' r ms t D H IH];
    intros ms' t' H'; inversion H'; subst; rewrite D in *; try discriminate.
  - match goal with X : DNone _ _ = _ |- _ => inversion X; subst end. auto.
  - match goal with X : DErr _ _ _ = _ |- _ => inversion X; subst end. auto.
  - match goal with X : DMsg _ _ _ = _ |- _ => inversion X; subst end.
    match goal with X : stream _ _ _ _ |- _ => apply IH in X as [-> ->] end. auto.
Qed.

Lemma stream_eqv s b s' b' ms t :
  decode s b = decode s' b' -> stream s b ms t -> stream s' b' ms t.
Proof.
  intros He H. inversion H; subst; rewrite He in *; econstructor; eassumption.
Qed.

(** what the user sees, from the reference decoding *)
Definition expected (ms : list M) (t : tail) (e : ending) : list (polled M E) :=
  map PItem ms ++
  match t with
  | TBad x _ _ => [PFail x]
  | TMore _ r =>
    match e with
    | StillOpen => []
    | Eof => match r with [] => [PEnd] | _ => [PFail io_err] end
    | Reset => [PFail io_err]
    end
  end.

Definition Inv (f : framed S) (body : list io) (ms : list M) (t : tail) : Prop :=
  ok (fr_codec f) /\ fr_errored f = false /\ fr_eof f = false /\ Forall delivery body /\
  stream (fr_codec f) (fr_buf f ++ received body) ms t /\
  (fr_readable f = false -> decode (fr_codec f) (fr_buf f) = DNone (fr_codec f) (fr_buf f)).

Lemma none_stuck s b s' r : ok s -> decode s b = DNone s' r -> decode s' r = DNone s' r.
Proof.
  intros Hok D. destruct (inc_none INC _ _ _ _ Hok D) as (H & _).
  specialize (H []). rewrite !app_nil_r in H. congruence.
Qed.

Lemma received_cons i l : received (i :: l) = (match i with IoData c => c | _ => [] end) ++ received l.
Proof. reflexivity. Qed.

(** front part of an iteration under the invariant *)
Lemma front_inv f body ms t :
  Inv f body ms t ->
  (exists m ms' f', framed_front decode io_err f = (Some (PItem m), f') /\ ms = m :: ms' /\ Inv f' body ms' t) \/
  (exists e s r f', framed_front decode io_err f = (Some (PFail e), f') /\ ms = [] /\ t = TBad e s r) \/
  (exists f', framed_front decode io_err f = (None, f') /\ fr_readable f' = false /\ Inv f' body ms t).
Proof.
  intros (Hok & He & Heof & Hb & Hst & Hrd).
  unfold framed_front. rewrite He, Heof.
  destruct (fr_readable f) eqn:R; cycle 1.
  { right; right. exists f. rewrite R. splits; auto. }
  destruct (decode (fr_codec f) (fr_buf f)) as [s' r|m s' r|e s' r|] eqn:D.
  - right; right. eexists; split; [reflexivity|]. split; [reflexivity|].
    destruct (inc_none INC _ _ _ _ Hok D) as (Hx & Hok' & _).
    splits; cbn; auto.
    + eapply stream_eqv; [apply Hx|exact Hst].
    + intros _. exact (none_stuck _ _ _ _ Hok D).
  - left. destruct (inc_msg INC _ _ _ _ _ Hok D) as (Hx & Hok' & _).
    inversion Hst as [? ? ? ? D2|? ? ? ? ? D2|? ? m2 ? ? ms2 ? D2 Hst2]; subst;
      rewrite Hx in D2; inversion D2; subst.
    do 3 eexists. split; [reflexivity|]. split; [reflexivity|].
    splits; cbn; auto. intros X; discriminate X.
  - right; left. destruct (inc_err INC _ _ _ _ _ Hok D) as (Hx & _).
    inversion Hst as [? ? ? ? D2|? ? ? ? ? D2|? ? m2 ? ? ms2 ? D2 Hst2]; subst;
      rewrite Hx in D2; inversion D2; subst.
    do 4 eexists. repeat split; reflexivity.
  - exfalso; eapply inc_nopanic; eassumption.
Qed.

(** one poll under the invariant; [tl] is what follows the deliveries *)
Lemma poll_inv body : forall f ms t en,
  Inv f body ms t ->
  let '(r, f', i') := framed_poll decode io_err f (body ++ ending_io en) in
  match r with
  | PItem m => exists ms' body', ms = m :: ms' /\ i' = body' ++ ending_io en /\ Inv f' body' ms' t /\ length body' <= length body
  | PPending => exists body', i' = body' ++ ending_io en /\ Inv f' body' ms t /\
                 (length body' < length body \/
                  (body = [] /\ body' = [] /\ en = StillOpen /\ ms = [] /\
                   t = TMore (fr_codec f') (fr_buf f')))
  | PFail _ | PEnd => expected ms t en = [r] /\ ms = []
  | PPanic => False
  end.
Proof.
  induction body as [|i body IH]; intros f ms t en HI.
  - cbn [app].
    assert (FP : forall g inp, framed_poll decode io_err g inp =
       match framed_front decode io_err g with
  | (Some r, f') => (r, f', inp)
  | (None, f') =>
    match inp with
    | [] => (PPending, f', [])
    | IoPending :: rest => (PPending, f', rest)
    | IoErr :: rest =>
      (PFail io_err, mkFramed (fr_codec f') (fr_buf f') (fr_readable f') (fr_eof f') true, rest)
    | IoData [] :: rest =>
      if fr_eof f' then (PEnd, f', rest)
      else framed_poll decode io_err (mkFramed (fr_codec f') (fr_buf f') true true (fr_errored f')) rest
    | IoData (x :: c) :: rest =>
      framed_poll decode io_err (mkFramed (fr_codec f') (fr_buf f' ++ x :: c) true false (fr_errored f')) rest
    end
  end) by (intros g inp; destruct inp; reflexivity).
    rewrite FP.
    destruct (front_inv _ _ _ _ HI) as
      [(m & ms' & f' & -> & -> & HI')|[(e & s & r & f' & -> & -> & ->)|(f' & -> & Hr & HI')]].
    + exists ms', []. auto.
    + auto.
    + destruct HI' as (Hok & He & Heof & Hb & Hst & Hrd).
      specialize (Hrd Hr).
      assert (Hms : ms = [] /\ t = TMore (fr_codec f') (fr_buf f')).
      { cbn in Hst. rewrite app_nil_r in Hst.
        inversion Hst; subst; rewrite Hrd in *; try discriminate.
        match goal with X : DNone _ _ = _ |- _ => inversion X; subst end. auto. }
      destruct Hms as [-> ->].
      destruct en; cbn [ending_io].
      * exists []. split; [reflexivity|]. split; [|right; repeat split; reflexivity].
        splits; auto.
      * rewrite Heof. rewrite FP. unfold framed_front; cbn [fr_errored fr_readable fr_eof fr_codec fr_buf].
        rewrite He, Hrd. destruct (fr_buf f') as [|x b]; cbn; auto.
      * cbn. auto.
  - cbn [app framed_poll].
    destruct (front_inv _ _ _ _ HI) as
      [(m & ms' & f' & -> & -> & HI')|[(e & s & r & f' & -> & -> & ->)|(f' & -> & Hr & HI')]].
    + exists ms', (i :: body). auto.
    + auto.
    + destruct HI' as (Hok & He & Heof & Hb & Hst & Hrd).
      inversion Hb as [|? ? Hi Hb']; subst.
      destruct i as [[|x c]| |]; cbn in Hi; try contradiction.
      * set (g := mkFramed (fr_codec f') (fr_buf f' ++ x :: c) true false (fr_errored f')).
        assert (HIg : Inv g body ms t).
        { splits; cbn; auto.
          - rewrite <- app_assoc. exact Hst.
          - intros X; discriminate X. }
        specialize (IH g ms t en HIg).
        destruct (framed_poll decode io_err g (body ++ ending_io en)) as [[r f2] i2].
        destruct r; auto.
        -- destruct IH as (ms' & body' & H1 & H2 & H3 & H4). exists ms', body'. cbn [length]. auto.
        -- destruct IH as (body' & H1 & H2 & [H3|H3]).
           ++ exists body'. cbn [length]. split; [exact H1|]. split; [exact H2|]. left; lia.
           ++ destruct H3 as (-> & -> & H3). exists []. cbn [length]. split; [exact H1|]. split; [exact H2|]. left; lia.
      * exists body. split; [reflexivity|]. split.
        -- splits; auto.
        -- left. cbn [length]. lia.
Qed.

Lemma observed_prefix_nil rs : @prefix_of (polled M E) [] rs.
Proof. exists rs. reflexivity. Qed.

Lemma polls_expected n : forall f body ms t en,
  Inv f body ms t ->
  let rs := fst (fst (framed_polls decode io_err n f (body ++ ending_io en))) in
  prefix_of (observed rs) (expected ms t en) /\
  (length ms + length body + 1 <= n -> observed rs = expected ms t en) .
Proof.
  induction n as [|n IH]; intros f body ms t en HI.
  - cbn. split; [apply observed_prefix_nil|lia].
  - cbn [framed_polls].
    pose proof (poll_inv body f ms t en HI) as HP.
    destruct (framed_poll decode io_err f (body ++ ending_io en)) as [[r f1] i1] eqn:Hp.
    destruct (framed_polls decode io_err n f1 i1) as [[rs f2] i2] eqn:Hps.
    cbn [fst].
    destruct r as [m|e| | |]; cbn [observed].
    + destruct HP as (ms' & body' & -> & -> & HI' & Hl).
      specialize (IH f1 body' ms' t en HI'). rewrite Hps in IH. cbn [fst] in IH.
      destruct IH as [[q Hq] H2]. split.
      * exists q. unfold expected in *. cbn [map app]. rewrite Hq. reflexivity.
      * intros Hn. unfold expected in *. cbn [map app length] in *. rewrite H2 by lia. reflexivity.
    + destruct HP as [-> _]. split; [exists []; reflexivity|auto].
    + destruct HP as [-> _]. split; [exists []; reflexivity|auto].
    + destruct HP as (body' & -> & HI' & Hl).
      specialize (IH f1 body' ms t en HI'). rewrite Hps in IH. cbn [fst] in IH.
      destruct IH as [Hq H2]. split; [exact Hq|].
      intros Hn. destruct Hl as [Hl|(-> & -> & -> & -> & ->)].
      * apply H2. lia.
      * (* exhausted *)
        cbn in Hn. destruct Hq as [q Hq]. cbn in Hq.
        destruct (observed rs); [|discriminate]. reflexivity.
    + contradiction.
Qed.

(** the state reached when everything was delivered and the stream stays open *)
Lemma polls_state n : forall f body ms s r,
  Inv f body ms (TMore s r) ->
  length ms + length body + 1 <= n ->
  let '(_, f', i') := framed_polls decode io_err n f body in
  fr_codec f' = s /\ fr_buf f' = r /\ i' = [] /\ fr_errored f' = false /\ fr_eof f' = false.
Proof.
  induction n as [|n IH]; intros f body ms s r HI Hn; [lia|].
  cbn [framed_polls].
  pose proof (poll_inv body f ms _ StillOpen HI) as HP. cbn [ending_io] in HP. rewrite app_nil_r in HP.
  destruct (framed_poll decode io_err f body) as [[p f1] i1] eqn:Hp.
  destruct p as [m|e| | |].
  - destruct HP as (ms' & body' & -> & Hi & HI' & Hl). rewrite app_nil_r in Hi. subst i1.
    specialize (IH f1 body' ms' s r HI' ltac:(cbn in Hn; lia)).
    destruct (framed_polls decode io_err n f1 body') as [[rs f2] i2]. exact IH.
  - destruct HP as [HP ->]. cbn in HP. discriminate.
  - destruct HP as [HP ->]. cbn in HP. discriminate.
  - destruct HP as (body' & Hi & HI' & Hl). rewrite app_nil_r in Hi. subst i1.
    destruct Hl as [Hl|(-> & -> & _ & -> & Ht)].
    + specialize (IH f1 body' ms s r HI' ltac:(lia)).
      destruct (framed_polls decode io_err n f1 body') as [[rs f2] i2]. exact IH.
    + destruct n as [|n].
      * cbn. inversion Ht; subst. destruct HI' as (_ & ? & ? & _). auto.
      * specialize (IH f1 [] [] s r HI' ltac:(cbn; lia)).
        destruct (framed_polls decode io_err (Datatypes.S n) f1 []) as [[rs f2] i2]. exact IH.
  - contradiction.
Qed.

Lemma inv_new s body ms t :
  ok s -> decode s [] = DNone s [] -> Forall delivery body ->
  stream s (received body) ms t -> Inv (framed_new s) body ms t.
Proof. intros. splits; auto. Qed.

(** C06, generic *)
Theorem chunking_independent s body1 body2 en :
  ok s -> decode s [] = DNone s [] ->
  Forall delivery body1 -> Forall delivery body2 -> received body1 = received body2 ->
  exists out, forall body, Forall delivery body -> received body = received body1 ->
  forall n, (length (received body) + w s + length body + 1 <= n)%nat ->
   observed (fst (fst (framed_polls decode io_err n (framed_new s) (body ++ ending_io en)))) = out.
Proof.
  intros Hok H0 Hb1 Hb2 Hr.
  destruct (stream_total s (received body1) Hok) as (ms & t & Hst).
  exists (expected ms t en). intros body Hb Hrb n Hn.
  eapply polls_expected; [apply inv_new; auto; rewrite Hrb; exact Hst|].
  assert (Hlen : length ms <= length (received body1) + w s).
  { clear - INC Hst Hok. remember (received body1) as B. clear HeqB.
    revert Hok. induction Hst as [| |s b m s' r ms t D H IH]; intros Hok; cbn; try lia.
    destruct (inc_msg INC _ _ _ _ _ Hok D) as (_ & Hok' & Hlt). specialize (IH Hok'). lia. }
  rewrite Hrb in Hn. lia.
Qed.

(** no panic, at any poll *)
Lemma polls_observed_all n : forall f body ms t en, Inv f body ms t ->
  ~ In PPanic (observed (fst (fst (framed_polls decode io_err n f (body ++ ending_io en))))).
Proof.
  intros f body ms t en HI Hin.
  destruct (polls_expected n f body ms t en HI) as [[q Hq] _].
  assert (In PPanic (expected ms t en)) as Hx by (rewrite Hq; apply in_or_app; auto).
  unfold expected in Hx. apply in_app_or in Hx as [Hx|Hx].
  - apply in_map_iff in Hx as (? & X & _); discriminate X.
  - destruct t; [destruct en; [|destruct r|]|]; cbn in Hx; intuition discriminate.
Qed.
End Inc.
