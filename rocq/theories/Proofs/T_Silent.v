(** C97: connected is not accepted - silent clients over QUIC. *)
From Coq Require Import List NArith.
From Verif Require Import Model.Base Model.Map Model.Stats Model.RepDriver Model.PubDriver Model.QuicStream Model.QuicDriver
  Spec.RepSpec Spec.PubSpec Spec.SilentSpec.
Import ListNotations.
Open Scope N_scope.
(*HEADEND*)
From Coq Require Import Bool Lia.
From Verif Require Import Proofs.BaseP Proofs.MapP.
Local Open Scope N_scope.

Lemma ql_run_app l evs1 evs2 : ql_run l (evs1 ++ evs2) = (let (l1, o1) := ql_run l evs1 in let (l2, o2) := ql_run l1 evs2 in (l2, o1 ++ o2)).
Proof.
  revert l. induction evs1 as [|e evs1 IH]; intros l; cbn [app ql_run]; [destruct (ql_run l evs2); reflexivity|].
  destruct (ql_step l e) as [l1 o1]. rewrite IH. destruct (ql_run l1 evs1) as [l2 o2]. destruct (ql_run l2 evs2) as [l3 o3]. rewrite app_assoc. reflexivity.
Qed.

(** The invariant, over the outputs so far. *)
Definition QI (l : qlink) (o : list ql_out) : Prop :=
  (ql_arrived l = true -> ql_sent l = true) /\ (ql_sent l = true <-> spoke o)
  /\ (ql_client l = QcStream <-> In LConnected o) /\ (ql_client l = QcStream -> ql_hand l = HDone)
  /\ (ql_server l = QsGiven <-> In LAccepted o) /\ (ql_server l = QsFailed <-> In LAcceptErr o)
  /\ (ql_server l = QsWaiting -> ql_hand l = HDone).
Lemma spoke_app a b : spoke (a ++ b) <-> spoke a \/ spoke b.
Proof.
  unfold spoke. split.
  - intros [(n & P & I)|I]; apply in_app_or in I as [I|I]; eauto.
  - intros [[(n & P & I)|I]|[(n & P & I)|I]]; eauto 6 using in_or_app.
Qed.
Lemma spoke_no a : (forall x, In x a -> match x with LWrote n => n = 0 | LFinished => False | _ => True end) -> ~ spoke a.
Proof. intros H [(n & P & I)|I]; specialize (H _ I); cbn in H; [lia|contradiction]. Qed.
Lemma in_nil_app {X} (x : X) a : In x (a ++ []) <-> In x a.
Proof. rewrite app_nil_r. reflexivity. Qed.
Lemma in_one_ne {X} (x y : X) a : x <> y -> (In x (a ++ [y]) <-> In x a).
Proof. intros N. rewrite in_app_iff. cbn. split; [intros [H|[H|[]]]; [exact H|congruence]|auto]. Qed.
Lemma in_one {X} (x : X) a : In x (a ++ [x]).
Proof. apply in_or_app. right. left. reflexivity. Qed.
Lemma spoke_one_no x a : match x with LWrote n => n = 0 | LFinished => False | _ => True end -> (spoke (a ++ [x]) <-> spoke a).
Proof.
  intros H. rewrite spoke_app. split; [|auto]. intros [S|S]; [exact S|]. exfalso. revert S. apply spoke_no. intros y [<-|[]]. exact H.
Qed.
Ltac ne := repeat match goal with |- context [In ?x (?a ++ [?y])] => rewrite (in_one_ne x y a) by discriminate | |- context [spoke (?a ++ [?y])] => rewrite (spoke_one_no y a) by (exact I || reflexivity) end.
Ltac iffs := repeat match goal with |- _ /\ _ => split end.
Lemma ql_init_QI : QI ql_init [].
Proof. unfold QI. cbn. iffs; try discriminate; split; try discriminate; try contradiction. intros [(n & _ & [])|[]]. Qed.
Lemma accept_bi_QI l o : QI l o -> (ql_server l = QsConnecting \/ ql_server l = QsWaiting) -> ql_hand l = HDone -> QI (fst (ql_accept_bi l)) (o ++ snd (ql_accept_bi l)).
Proof.
  intros (A & S & C & H & G & F & W) Sv Hd. unfold ql_accept_bi.
  assert (NG : ~ In LAccepted o) by (rewrite <- G; destruct Sv; congruence).
  assert (NF : ~ In LAcceptErr o) by (rewrite <- F; destruct Sv; congruence).
  destruct (ql_arrived l) eqn:Ar; [|destruct (ql_lost l)];
    cbn [fst snd]; unfold QI, ql_set_server; cbn [ql_hand ql_client ql_sent ql_arrived ql_lost ql_server];
    rewrite ?app_nil_r; ne;
    iffs; auto; try (split; [discriminate|tauto]); try discriminate; try (split; [intros _; apply in_one|reflexivity]); try (rewrite Ar; discriminate).
Qed.
Lemma ql_step_QI l e o : QI l o -> QI (fst (ql_step l e)) (o ++ snd (ql_step l e)).
Proof.
  intros J. pose proof J as (A & S & C & H & G & F & W). destruct e as [ok| | | |n| |]; cbn [ql_step].
  - cbn [snd]. rewrite app_nil_r. cbn [fst]. destruct (ql_hand l) eqn:Hd; try exact J.
    unfold QI; cbn [ql_hand ql_client ql_sent ql_arrived ql_lost ql_server]. iffs; auto.
    + intros Cl. specialize (H Cl). discriminate.
    + intros Sv. specialize (W Sv). discriminate.
  - cbn [fst snd]. rewrite app_nil_r. unfold QI; cbn [ql_hand ql_client ql_sent ql_arrived ql_lost ql_server]. iffs; auto.
    intros B. apply orb_true_iff in B as [B|B]; [auto|]. apply andb_true_iff in B. apply B.
  - cbn [fst snd]. rewrite app_nil_r. exact J.
  - unfold ql_client_poll. destruct (ql_client l) eqn:Cl; try (cbn [fst snd]; rewrite app_nil_r; exact J).
    assert (NC : ~ In LConnected o) by (rewrite <- C; discriminate).
    destruct (ql_hand l) eqn:Hd; [cbn [fst snd]; rewrite app_nil_r; exact J| |].
    2:{ unfold QI, ql_set_client; cbn [fst snd ql_hand ql_client ql_sent ql_arrived ql_lost ql_server].
        ne. iffs; auto; try discriminate; try (split; [discriminate|tauto]). intros Sv. specialize (W Sv). discriminate. }
    destruct (ql_lost l); unfold QI, ql_set_client; cbn [fst snd ql_hand ql_client ql_sent ql_arrived ql_lost ql_server];
      ne; iffs; auto; try discriminate; try (split; [discriminate|tauto]).
    split; [intros _; apply in_one|reflexivity].
  - destruct (ql_client l) eqn:Cl; try (cbn [fst snd]; rewrite app_nil_r; exact J).
    destruct (ql_lost l); [cbn [fst snd]; rewrite app_nil_r; exact J|]. destruct (N.eqb_spec n 0) as [->|N0].
    + unfold QI. cbn [fst snd]. rewrite Cl. ne. iffs; auto; apply C || apply G || apply F.
    + unfold QI, ql_set_sent; cbn [fst snd ql_hand ql_client ql_sent ql_arrived ql_lost ql_server]. rewrite Cl.
      ne. iffs; auto. split; [intros _; left; exists n; split; [lia|apply in_one]|reflexivity].
  - destruct (ql_client l) eqn:Cl; try (cbn [fst snd]; rewrite app_nil_r; exact J).
    destruct (ql_lost l); [cbn [fst snd]; rewrite app_nil_r; exact J|].
    unfold QI, ql_set_sent; cbn [fst snd ql_hand ql_client ql_sent ql_arrived ql_lost ql_server]. rewrite Cl.
    ne. iffs; auto. split; [intros _; right; apply in_one|reflexivity].
  - unfold ql_server_poll. destruct (ql_server l) eqn:Sv; try (cbn [fst snd]; rewrite app_nil_r; exact J).
    + destruct (ql_hand l) eqn:Hd; [cbn [fst snd]; rewrite app_nil_r; exact J|apply accept_bi_QI; auto|].
      assert (NG : ~ In LAccepted o) by (rewrite <- G; discriminate).
      unfold QI, ql_set_server; cbn [fst snd ql_hand ql_client ql_sent ql_arrived ql_lost ql_server].
      ne. rewrite Hd. iffs; auto; try discriminate; try (split; [discriminate|tauto]).
      split; [intros _; apply in_one|reflexivity].
    + apply accept_bi_QI; auto.
Qed.
Lemma ql_run_QI evs : forall l o l' o', QI l o -> ql_run l evs = (l', o') -> QI l' (o ++ o').
Proof.
  induction evs as [|e evs IH]; intros l o l' o' J R; cbn [ql_run] in R; [injection R as <- <-; rewrite app_nil_r; exact J|].
  pose proof (ql_step_QI l e o J) as J1. destruct (ql_step l e) as [l1 o1]. destruct (ql_run l1 evs) as [l2 o2] eqn:R2. injection R as <- <-.
  rewrite app_assoc. exact (IH _ _ _ _ J1 R2).
Qed.
(** A step gives LAccepted only in a state in which the client has spoken. *)
Lemma accept_step l e : In LAccepted (snd (ql_step l e)) -> ql_arrived l = true.
Proof.
  assert (B : In LAccepted (snd (ql_accept_bi l)) -> ql_arrived l = true).
  { unfold ql_accept_bi. destruct (ql_arrived l); [reflexivity|]. destruct (ql_lost l); cbn; [intros [F|[]]; discriminate|intros []]. }
  destruct e as [ok| | | |n| |]; cbn [ql_step snd]; try (intros []).
  - unfold ql_client_poll. destruct (ql_client l); try (intros []). destruct (ql_hand l); [intros []| |intros [F|[]]; discriminate].
    destruct (ql_lost l); intros [F|[]]; discriminate.
  - destruct (ql_client l); try (intros []). destruct (ql_lost l); [intros []|]. destruct (n =? 0); intros [F|[]]; discriminate.
  - destruct (ql_client l); try (intros []). destruct (ql_lost l); [intros []|]. intros [F|[]]; discriminate.
  - unfold ql_server_poll. destruct (ql_server l); try (intros []); [|exact B]. destruct (ql_hand l); [intros []|exact B|intros [F|[]]; discriminate].
Qed.
Lemma accept_outs l e : In LAccepted (snd (ql_step l e)) -> snd (ql_step l e) = [LAccepted].
Proof.
  intros H. pose proof (accept_step l e H) as A. destruct e as [ok| | | |n| |]; cbn [ql_step snd] in *; try (destruct H; fail).
  - unfold ql_client_poll in *. destruct (ql_client l); try (destruct H; fail). destruct (ql_hand l); [destruct H| |destruct H as [H|[]]; discriminate].
    destruct (ql_lost l); destruct H as [H|[]]; discriminate.
  - destruct (ql_client l); try (destruct H; fail). destruct (ql_lost l); [destruct H|]. destruct (n =? 0); destruct H as [F|[]]; discriminate.
  - destruct (ql_client l); try (destruct H; fail). destruct (ql_lost l); [destruct H|]. destruct H as [F|[]]; discriminate.
  - unfold ql_server_poll, ql_accept_bi in *. rewrite A in *. destruct (ql_server l); try (destruct H; fail); try reflexivity.
    destruct (ql_hand l); [destruct H|reflexivity|destruct H as [F|[]]; discriminate].
Qed.

(*@prop C97 (what the server learns): in every history of a QUIC connection the server's accept future gives the connection only after the client has written at least one byte on it or has ended its stream. *)
Lemma C97_accepted_after_first_byte_pf :
  forall evs l log before after, ql_run ql_init evs = (l, log) -> log = before ++ LAccepted :: after -> spoke before.
Proof.
  intros evs. assert (G : forall evs l0 o l log before after, QI l0 o -> ql_run l0 evs = (l, log) -> log = before ++ LAccepted :: after -> spoke (o ++ before)).
  { clear. induction evs as [|e evs IH]; intros l0 o l log before after J R E; cbn [ql_run] in R.
    - injection R as <- <-. destruct before; discriminate.
    - pose proof (ql_step_QI l0 e o J) as J1. pose proof (accept_outs l0 e) as AO. pose proof (accept_step l0 e) as AS.
      destruct (ql_step l0 e) as [l1 o1]. cbn [fst snd] in *. destruct (ql_run l1 evs) as [l2 o2] eqn:R2. injection R as <- <-.
      destruct (in_dec (fun x y : ql_out => ltac:(decide equality; apply N.eq_dec) : {x = y} + {x <> y}) LAccepted o1) as [I|N].
      + rewrite (AO I) in E. destruct J as (A & S & _). specialize (A (AS I)). apply S in A. apply spoke_app. left. exact A.
      + assert (X : exists b, before = o1 ++ b /\ o2 = b ++ LAccepted :: after).
        { clear - E N. revert before E. induction o1 as [|x o1 IH]; intros before E; [exists before; auto|].
          destruct before as [|y before]; cbn [app] in E; injection E as -> E; [exfalso; apply N; left; reflexivity|].
          destruct (IH (fun F => N (or_intror F)) before E) as (b & -> & Eb). exists b. auto. }
        destruct X as (b & -> & Eb). rewrite app_assoc. exact (IH _ _ _ _ _ _ J1 R2 Eb). }
  intros l log before after R E. exact (G evs ql_init [] l log before after ql_init_QI R E).
Qed.

(*@prop C97 is violated over QUIC: a client whose connect() has succeeded may stay unknown to the server for ever: as long as it writes nothing, no history makes the server's accept future give the connection, and unless the connection is lost the future does not end at all. *)
Lemma C97_silent_client_unknown_refuted_pf :
  (exists evs l log, silent evs /\ ql_run ql_init evs = (l, log) /\ In LConnected log /\ ~ In LLost evs)
  /\ forall evs l log, silent evs -> ql_run ql_init evs = (l, log) ->
     ~ In LAccepted log /\ (In LConnected log -> ~ In LLost evs -> ~ In LAcceptErr log).
Proof.
  split.
  { exists [LHandshake true; LClientPoll; LServerPoll]. eexists; eexists. split; [repeat constructor|]. split; [reflexivity|]. cbn. split; [auto|].
    intros [F|[F|[F|[]]]]; discriminate. }
  intros evs l log Si R. pose proof (ql_run_QI _ _ _ _ _ ql_init_QI R) as (A & S & C & H & G & F & W). cbn [app] in *.
  assert (NS : ~ spoke log).
  { apply spoke_no. clear - Si R. revert log l R. generalize ql_init. induction evs as [|e evs IH]; intros l0 log l R; cbn [ql_run] in R.
    - injection R as <- <-. intros x [].
    - inversion Si as [|? ? S1 S2]; subst. destruct (ql_step l0 e) as [l1 o1] eqn:St. destruct (ql_run l1 evs) as [l2 o2] eqn:R2. injection R as <- <-.
      intros x I. apply in_app_or in I as [I|I]; [|exact (IH S2 _ _ _ R2 x I)]. clear IH R2.
      destruct e as [ok| | | |n| |]; try contradiction; cbn [ql_step] in St.
      + injection St as <- <-. destruct I.
      + injection St as <- <-. destruct I.
      + injection St as <- <-. destruct I.
      + unfold ql_client_poll in St. destruct (ql_client l0); try (injection St as <- <-; destruct I; fail).
        destruct (ql_hand l0); [|destruct (ql_lost l0)|]; injection St as <- <-; cbn in I; intuition (subst; exact Logic.I).
      + unfold ql_server_poll, ql_accept_bi in St. destruct (ql_server l0), (ql_hand l0), (ql_arrived l0), (ql_lost l0); injection St as <- <-; cbn in I; intuition (subst; exact Logic.I). }
  split.
  { intros I. apply NS. apply in_split in I as (b & a & ->). apply spoke_app. left. eapply C97_accepted_after_first_byte_pf; [exact R|reflexivity]. }
  intros Cn NL I.
  (* the connection is not lost and the handshake did not fail *)
  assert (Hd : ql_hand l = HDone) by (apply H, C, Cn).
  assert (K : forall evs l0 l log, ~ In LLost evs -> ql_run l0 evs = (l, log) -> ql_lost l0 = false -> ql_hand l = HDone -> ~ In LAcceptErr log).
  { clear. induction evs as [|e evs IH]; intros l0 l log NL R L0 Hd; cbn [ql_run] in R; [injection R as <- <-; intros []|].
    destruct (ql_step l0 e) as [l1 o1] eqn:St. destruct (ql_run l1 evs) as [l2 o2] eqn:R2. injection R as <- <-.
    assert (HF : forall evs l0 l log, ql_run l0 evs = (l, log) -> ql_hand l0 = HFailed -> ql_hand l = HFailed).
    { clear. induction evs as [|e evs IH]; intros l0 l log R H0; cbn [ql_run] in R; [injection R as <- <-; exact H0|].
      destruct (ql_step l0 e) as [l1 o1] eqn:St. destruct (ql_run l1 evs) as [l2 o2] eqn:R2. injection R as <- <-. apply (IH _ _ _ R2).
      destruct e as [ok| | | |n| |]; cbn [ql_step] in St; unfold ql_client_poll, ql_server_poll, ql_accept_bi, ql_set_client, ql_set_server, ql_set_sent in St; rewrite ?H0 in St;
        repeat match type of St with context [match ?x with _ => _ end] => destruct x end; injection St as <- <-; cbn [ql_hand]; assumption || reflexivity. }
    intros I. apply in_app_or in I as [I|I].
    - assert (X : ql_hand l0 = HFailed /\ ql_hand l1 = ql_hand l0).
      { clear - St I L0. destruct e as [ok| | | |n| |]; cbn [ql_step] in St; unfold ql_client_poll, ql_server_poll, ql_accept_bi, ql_set_client, ql_set_server, ql_set_sent in St; rewrite ?L0 in St;
        repeat match type of St with context [match ?x with _ => _ end] => destruct x eqn:? end; injection St as <- <-; cbn [In] in I; try tauto; try (destruct I as [I|[]]; discriminate); cbn [ql_hand]; auto. }
      destruct X as (X & Y). rewrite <- Y in X. rewrite (HF _ _ _ _ R2 X) in Hd. discriminate.
    - revert I. apply (IH l1 l2 o2); auto; [intros F; apply NL; right; exact F|].
      destruct e as [ok| | | |n| |]; cbn [ql_step] in St; try (exfalso; apply NL; left; reflexivity); unfold ql_client_poll, ql_server_poll, ql_accept_bi, ql_set_client, ql_set_server, ql_set_sent in St;
        repeat match type of St with context [match ?x with _ => _ end] => destruct x eqn:? end; injection St as <- <-; cbn [ql_lost]; congruence. }
  exact (K _ _ _ _ NL R eq_refl Hd I).
Qed.

(*@prop C97 (what holds): a client that has spoken on a connection that is not lost becomes known: whatever happened before, once what it sent has been delivered the next look at the accept future gives the connection, if it has not done so before. *)
Lemma C97_heard_client_accepted_partial_pf :
  forall evs l log, ql_run ql_init evs = (l, log) -> spoke log -> ~ In LLost evs -> ~ In LAccepted log ->
  exists l' , ql_run l [LDeliver; LServerPoll] = (l', [LAccepted]).
Proof.
  intros evs l log R Sp NL NA. pose proof (ql_run_QI _ _ _ _ _ ql_init_QI R) as (A & S & C & H & G & F & W). cbn [app] in *.
  assert (Ls : ql_lost l = false).
  { clear - R NL. revert R. assert (E : ql_lost ql_init = false) by reflexivity. revert E log l. generalize ql_init. induction evs as [|e evs IH]; intros l0 E log l R; cbn [ql_run] in R; [injection R as <- <-; exact E|].
    destruct (ql_step l0 e) as [l1 o1] eqn:St. destruct (ql_run l1 evs) as [l2 o2] eqn:R2. injection R as <- <-. apply (IH (fun X => NL (or_intror X)) l1) with (log := o2); [|exact R2].
      destruct e as [ok| | | |n| |]; cbn [ql_step] in St; try (exfalso; apply NL; left; reflexivity); unfold ql_client_poll, ql_server_poll, ql_accept_bi, ql_set_client, ql_set_server, ql_set_sent in St;
        repeat match type of St with context [match ?x with _ => _ end] => destruct x eqn:? end; injection St as <- <-; cbn [ql_lost]; congruence. }
  (* whoever spoke is connected *)
  assert (Hd : ql_hand l = HDone /\ ql_server l <> QsFailed).
  { assert (J : forall evs l0 l log, ql_run l0 evs = (l, log) -> (ql_sent l0 = true -> ql_client l0 = QcStream) -> (ql_client l0 = QcStream -> ql_hand l0 = HDone) ->
       (ql_server l0 = QsFailed -> ql_hand l0 = HFailed) -> ~ In LLost evs -> ql_lost l0 = false -> ql_sent l = true -> ql_hand l = HDone /\ ql_server l <> QsFailed).
    { clear. induction evs as [|e evs IH]; intros l0 l log R J1 J2 J3 NL L0 Se; cbn [ql_run] in R; [injection R as <- <-; specialize (J2 (J1 Se)); split; [exact J2|intros X; specialize (J3 X); congruence]|].
      destruct (ql_step l0 e) as [l1 o1] eqn:St. destruct (ql_run l1 evs) as [l2 o2] eqn:R2. injection R as <- <-.
      apply (IH _ _ _ R2); auto; try (intros X; apply NL; right; exact X); clear IH R2;
      destruct e as [ok| | | |n| |]; cbn [ql_step] in St; try (exfalso; apply NL; left; reflexivity); unfold ql_client_poll, ql_server_poll, ql_accept_bi, ql_set_client, ql_set_server, ql_set_sent in St;
        repeat match type of St with context [match ?x with _ => _ end] => destruct x eqn:? end; injection St as <- <-; cbn [ql_lost ql_hand ql_client ql_sent ql_server]; intros; try congruence; auto; try (intuition congruence).
 }
    apply (J _ _ _ _ R); auto; try discriminate. apply S, Sp. }
  destruct Hd as (Hd & NF). assert (Se : ql_sent l = true) by (apply S, Sp).
  cbn [ql_run ql_step]. rewrite Se, Ls. cbn [negb andb]. rewrite orb_true_r. unfold ql_server_poll, ql_accept_bi. cbn [ql_server ql_hand ql_arrived]. rewrite Hd.
  destruct (ql_server l) eqn:Sv; try (eexists; reflexivity); [exfalso; apply NA, G; reflexivity|congruence].
Qed.

(** ** The sockets *)
Lemma rep_none_run m min auth co D : m < 2 ^ 64 -> forall evs s s' log, rep_none_completes evs -> rp_auths s = [] -> rp_peers s = [] -> rp_chan s = [] -> rp_held s = [] -> rp_active s <= m ->
  rp_run (Some m) min auth co D s evs = (s', log) ->
  rp_active s' = rp_active s + rep_admitted log /\ rp_active s' <= m /\ rep_admitted log + rep_refused log = rep_arriving evs
  /\ (rep_refused log <> 0 -> rp_active s' = m)
  /\ (forall x, In x log -> match x with RAccepted _ | RRefused | RSocketDropped => True | _ => False end).
Proof.
  intros Lt. induction evs as [|ev evs IH]; intros s s' log NC A P Ch H Le R; cbn [rp_run] in R.
  { injection R as <- <-. cbn. repeat split; try lia. }
  inversion NC as [|? ? N1 N2]; subst. destruct (rp_act (Some m) min auth co D s ev) as [s1 o1] eqn:Ac. destruct (rp_run (Some m) min auth co D s1 evs) as [s2 o2] eqn:R2. injection R as <- <-.
  assert (K : (rp_auths s1 = [] /\ rp_peers s1 = [] /\ rp_chan s1 = [] /\ rp_held s1 = []) /\
     ((ev = VAccept /\ ((rp_active s < m /\ rp_active s1 = rp_active s + 1 /\ exists c, o1 = [RAccepted c]) \/ (rp_active s = m /\ rp_active s1 = m /\ o1 = [RRefused])))
      \/ (ev <> VAccept /\ rp_active s1 = rp_active s /\ (o1 = [] \/ o1 = [RSocketDropped])))).
  { destruct ev as [ad e|k i ok|k r| | |rid x|rid|]; cbn [rp_act] in Ac.
    - unfold rp_peer in Ac. rewrite P in Ac. cbn [mget] in Ac. injection Ac as <- <-. (split; [auto|]; right; split; [discriminate|]; auto).
    - unfold rp_auth in Ac. rewrite A in Ac. destruct k; cbn [nth_error] in Ac; injection Ac as <- <-; (split; [auto|]; right; split; [discriminate|]; auto).
    - contradiction.
    - unfold rp_accept in Ac. destruct (N.leb_spec m (rp_active s)) as [L|L].
      + injection Ac as <- <-. split; [auto|]. left. split; [reflexivity|]. right. repeat split; lia.
      + injection Ac as <- <-. unfold rp_incr. cbn [rp_auths rp_peers rp_chan rp_held rp_active]. split; [auto|]. left. split; [reflexivity|]. left. split; [exact L|].
        split; [unfold wrap64; apply N.mod_small; lia|eauto].
    - rewrite Ch in Ac. injection Ac as <- <-. split; [auto|]. right. split; [discriminate|]. auto.
    - rewrite H in Ac. cbn in Ac. injection Ac as <- <-. split; [auto|]. right. split; [discriminate|]. auto.
    - rewrite H in Ac. cbn in Ac. injection Ac as <- <-. split; [auto|]. right. split; [discriminate|]. auto.
    - rewrite Ch in Ac. destruct (rp_dropped s); injection Ac as <- <-; cbn; split; auto; right; (split; [discriminate|]); auto. }
  destruct K as ((A1 & P1 & C1 & H1) & K).
  assert (Le1 : rp_active s1 <= m) by (destruct K as [(_ & [(? & ? & _)|(? & ? & _)])|(_ & ? & _)]; lia).
  destruct (IH _ _ _ N2 A1 P1 C1 H1 Le1 R2) as (I1 & I2 & I3 & I4 & I5).
  unfold rep_admitted, rep_refused, rep_arriving in *. rewrite !filter_app, !app_length.
  destruct K as [(-> & [(L & E & c & ->)|(E0 & E & ->)])|(Nv & E & [-> | ->])].
  - cbn [filter length app]. repeat split; try lia. intros x [<-|I]; [exact Logic.I|exact (I5 x I)].
  - cbn [filter length app]. repeat split; try lia. intros x [<-|I]; [exact Logic.I|exact (I5 x I)].
  - destruct ev; try congruence; cbn [filter length app]; repeat split; try lia; auto.
  - destruct ev; try congruence; cbn [filter length app]; repeat split; try lia; auto; (intros z Hz; change (In z (RSocketDropped :: o2)) in Hz; destruct Hz as [<-|I]; [exact Logic.I|exact (I5 z I)]).
Qed.

Lemma pub_none_run m buf min auth co : m < 2 ^ 64 -> forall evs s s' log, pub_none_completes evs -> pb_auths s = [] -> pb_sess s = [] -> pb_active s <= m ->
  pb_run (Some m) buf min auth co s evs = (s', log) ->
  pb_active s' = pb_active s + pub_admitted log /\ pb_active s' <= m /\ pub_admitted log + pub_refused log = pub_arriving evs
  /\ (pub_refused log <> 0 -> pb_active s' = m)
  /\ (forall x, In x log -> match x with QAccepted _ | QRefused | QPublished _ | QPublishErr | QClosed => True | _ => False end).
Proof.
  intros Lt. induction evs as [|ev evs IH]; intros s s' log NC A P Le R; cbn [pb_run] in R.
  { injection R as <- <-. cbn. repeat split; try lia. }
  inversion NC as [|? ? N1 N2]; subst. destruct (pb_act (Some m) buf min auth co s ev) as [s1 o1] eqn:Ac. destruct (pb_run (Some m) buf min auth co s1 evs) as [s2 o2] eqn:R2. injection R as <- <-.
  assert (K : (pb_auths s1 = [] /\ pb_sess s1 = []) /\
     ((ev = WAccept /\ ((pb_active s < m /\ pb_active s1 = pb_active s + 1 /\ exists c, o1 = [QAccepted c]) \/ (pb_active s = m /\ pb_active s1 = m /\ o1 = [QRefused])))
      \/ (ev <> WAccept /\ pb_active s1 = pb_active s /\ (o1 = [] \/ exists x, o1 = [x] /\ match x with QPublished _ | QPublishErr | QClosed => True | _ => False end)))).
  { assert (Snd : forall mm t s1 o1, pb_send mm t s = (s1, o1) -> (pb_auths s1 = [] /\ pb_sess s1 = []) /\ pb_active s1 = pb_active s /\ (o1 = [] \/ exists x, o1 = [x] /\ match x with QPublished _ | QPublishErr | QClosed => True | _ => False end)).
    { clear - A P. intros mm t s1 o1 F. unfold pb_send in F. destruct mm as [b|]; [destruct (pb_closed s)|]; injection F as <- <-; cbn [pb_auths pb_sess pb_active]; (split; [auto|]); (split; [reflexivity|]); first [left; reflexivity | right; eexists; split; [reflexivity|exact Logic.I]]. }
    destruct ev as [c e|k i ok|k r| |t p|t p|]; cbn [pb_act] in Ac.
    - unfold pb_session in Ac. rewrite P in Ac. cbn [mget] in Ac. injection Ac as <- <-. split; [auto|]. right. split; [discriminate|]. auto.
    - unfold pb_auth in Ac. rewrite A in Ac. destruct k; cbn [nth_error] in Ac; injection Ac as <- <-; (split; [auto|]; right; split; [discriminate|]; auto).
    - contradiction.
    - unfold pb_accept in Ac. destruct (N.leb_spec m (pb_active s)) as [L|L].
      + injection Ac as <- <-. split; [auto|]. left. split; [reflexivity|]. right. repeat split; lia.
      + injection Ac as <- <-. unfold pb_incr. cbn [pb_auths pb_sess pb_active]. split; [auto|]. left. split; [reflexivity|]. left. split; [exact L|].
        split; [unfold wrap64; apply N.mod_small; lia|eauto].
    - destruct (Snd _ _ _ _ Ac) as (Q1 & Q2 & Q3). split; [exact Q1|]. right. split; [discriminate|]. auto.
    - destruct (Snd _ _ _ _ Ac) as (Q1 & Q2 & Q3). split; [exact Q1|]. right. split; [discriminate|]. auto.
    - destruct (pb_closed s); injection Ac as <- <-; cbn [pb_auths pb_sess pb_active]; (split; [auto|]); right; (split; [discriminate|]); (split; [reflexivity|]); [auto|]. right. exists QClosed. auto. }
  destruct K as ((A1 & P1) & K).
  assert (Le1 : pb_active s1 <= m) by (destruct K as [(_ & [(? & ? & _)|(? & ? & _)])|(_ & ? & _)]; lia).
  destruct (IH _ _ _ N2 A1 P1 Le1 R2) as (I1 & I2 & I3 & I4 & I5).
  unfold pub_admitted, pub_refused, pub_arriving in *. rewrite !filter_app, !app_length.
  destruct K as [(-> & [(L & E & c & ->)|(E0 & E & ->)])|(Nv & E & [-> | (y & -> & Y)])].
  - cbn [filter length app]. repeat split; try lia. intros x [<-|I]; [exact Logic.I|exact (I5 x I)].
  - cbn [filter length app]. repeat split; try lia. intros x [<-|I]; [exact Logic.I|exact (I5 x I)].
  - destruct ev; try congruence; cbn [filter length app]; repeat split; try lia; auto.
  - assert (Z : forall x, In x ([y] ++ o2) -> match x with QAccepted _ | QRefused | QPublished _ | QPublishErr | QClosed => True | _ => False end).
    { intros x [<-|I]; [destruct y; auto|exact (I5 x I)]. }
    destruct y; try contradiction; destruct ev; try congruence; cbn [filter length app]; repeat split; try lia; auto.
Qed.

(*@prop C97 is violated by the reply socket, with or without an authenticator: connections whose accept futures do not complete (silent clients, over QUIC) keep their places.  Of the connections that arrive exactly the first max_clients are admitted, every other one is turned away, and no client is ever served. *)
Lemma C97_reply_silent_clients_refuted_pf :
  forall m min auth co D evs s log, m < 2 ^ 64 -> rep_none_completes evs ->
  rp_run (Some m) min auth co D rp_init evs = (s, log) ->
  rep_admitted log = N.min m (rep_arriving evs) /\ rep_refused log = rep_arriving evs - m
  /\ (forall x, In x log -> match x with RAccepted _ | RRefused | RSocketDropped => True | _ => False end).
Proof.
  intros m min auth co D evs s log Lt NC R. destruct (rep_none_run m min auth co D Lt evs rp_init s log NC eq_refl eq_refl eq_refl eq_refl) as (I1 & I2 & I3 & I4 & I5); [cbn; lia|exact R|].
  cbn [rp_active rp_init] in I1. destruct (N.eq_dec (rep_refused log) 0) as [Z|Z]; [|specialize (I4 Z)]; repeat split; try lia; exact I5.
Qed.

(*@prop C97 is violated by the publisher, with or without an authenticator: in the same way. *)
Lemma C97_publisher_silent_clients_refuted_pf :
  forall m buf min auth co evs s log, m < 2 ^ 64 -> pub_none_completes evs ->
  pb_run (Some m) buf min auth co pb_init evs = (s, log) ->
  pub_admitted log = N.min m (pub_arriving evs) /\ pub_refused log = pub_arriving evs - m
  /\ (forall x, In x log -> match x with QAccepted _ | QRefused | QPublished _ | QPublishErr | QClosed => True | _ => False end).
Proof.
  intros m buf min auth co evs s log Lt NC R. destruct (pub_none_run m buf min auth co Lt evs pb_init s log NC eq_refl eq_refl) as (I1 & I2 & I3 & I4 & I5); [cbn; lia|exact R|].
  cbn [pb_active pb_init] in I1. destruct (N.eq_dec (pub_refused log) 0) as [Z|Z]; [|specialize (I4 Z)]; repeat split; try lia; exact I5.
Qed.

(** The driver and its connections together: while all clients are silent, the driver sees a history in which no accept future completes. *)
Definition quiet_link (l : qlink) : Prop :=
  ql_sent l = false /\ ql_arrived l = false /\ ql_lost l = false /\ ql_hand l <> HFailed /\ (ql_server l = QsConnecting \/ ql_server l = QsWaiting).
Lemma quiet_poll l : quiet_link l -> quiet_link (fst (ql_server_poll l)) /\ snd (ql_server_poll l) = [].
Proof.
  intros (S & A & L & H & Sv). destruct l as [h c se ar lo sv]. cbn [ql_sent ql_arrived ql_lost ql_hand ql_server] in *. subst.
  destruct Sv as [-> | ->], h; try congruence; cbn; unfold quiet_link; cbn; repeat split; auto; discriminate.
Qed.
Lemma quiet_step l e : quiet_link l -> match e with LHandshake false | LLost | LWrite _ | LFinish | LServerPoll => False | _ => True end -> quiet_link (fst (ql_step l e)).
Proof.
  intros (S & A & L & H & Sv) Q. destruct l as [h c se ar lo sv]. cbn [ql_sent ql_arrived ql_lost ql_hand ql_server] in *. subst.
  destruct e as [[]| | | |n| |]; try contradiction; destruct h, c; try congruence; cbn; unfold quiet_link; cbn; repeat split; auto; discriminate.
Qed.
Section Quiet.
Variables (St Ev Out : Type) (act : St -> Ev -> St * list Out) (conns : St -> list N) (next_cid : St -> N) (accept : Ev) (done : nat -> bool -> Ev) (other : Ev -> bool)
          (run : St -> list Ev -> St * list Out).
Hypothesis run_nil : forall s, run s [] = (s, []).
Hypothesis run_cons : forall s e l, run s (e :: l) = (let (s1, o1) := act s e in let (s2, o2) := run s1 l in (s2, o1 ++ o2)).
Lemma quiet_run : forall evs s ls s' ls' log, all_silent evs -> Forall (fun p => quiet_link (snd p)) ls ->
  qd_run St Ev Out act conns next_cid accept done other (s, ls) evs = ((s', ls'), log) ->
  run s (flat_map (fun e => match e with DArrive => [accept] | DOther ev => if other ev then [ev] else [] | _ => [] end) evs) = (s', log).
Proof using run_nil run_cons.
  induction evs as [|e evs IH]; intros s ls s' ls' log Si Ql R; cbn [qd_run] in R.
  { injection R as <- <- <-. apply run_nil. }
  inversion Si as [|? ? S1 S2]; subst.
  destruct (qd_step St Ev Out act conns next_cid accept done other (s, ls) e) as [[s1 ls1] o1] eqn:St1.
  destruct (qd_run St Ev Out act conns next_cid accept done other (s1, ls1) evs) as [[s2 ls2] o2] eqn:R2. injection R as <- <- <-.
  assert (Set_ : forall cid l, quiet_link l -> Forall (fun p => quiet_link (snd p)) (mset cid l ls)).
  { intros cid l Q. clear - Ql Q. induction Ql as [|[c x] ls0 Qx Qs IHs]; cbn; [constructor; auto|]. destruct (eq_dec cid c); constructor; auto. }
  assert (Get : forall cid l, mget cid ls = Some l -> quiet_link l).
  { intros cid l G. apply mget_in in G. rewrite Forall_forall in Ql. exact (Ql _ G). }
  destruct e as [|cid le|k|ev]; cbn [qd_step] in St1; cbn [flat_map app].
  - destruct (act s accept) as [s0 o0] eqn:Ac. injection St1 as <- <- <-. rewrite run_cons, Ac.
    rewrite (IH s0 _ s2 ls2 o2 S2) with (2 := R2); [reflexivity|]. destruct (next_cid s =? next_cid s0); [exact Ql|]. apply Set_. unfold quiet_link; cbn. repeat split; auto; discriminate.
  - assert (X : s1 = s /\ o1 = [] /\ Forall (fun p => quiet_link (snd p)) ls1).
    { destruct (mget cid ls) as [l|] eqn:G; [|destruct le; injection St1 as <- <- <-; auto].
      assert (K : (le = LServerPoll /\ ((s, ls), []) = ((s1, ls1), o1)) \/ (le <> LServerPoll /\ ((s, mset cid (fst (ql_step l le)) ls), []) = ((s1, ls1), o1))).
      { destruct le; ((left; split; [reflexivity|exact St1]) || (right; split; [discriminate|exact St1])). }
      destruct K as [(-> & K)|(Ne & K)].
      - assert (s1 = s /\ ls1 = ls /\ o1 = []) as (-> & -> & ->) by (repeat split; congruence). auto.
      - assert (s1 = s /\ ls1 = mset cid (fst (ql_step l le)) ls /\ o1 = []) as (-> & -> & ->) by (repeat split; congruence).
        repeat split; auto. apply Set_, quiet_step; [exact (Get _ _ G)|]. destruct le as [[]| | | |n| |]; auto. }
    destruct X as (-> & -> & Q1). exact (IH _ _ _ _ _ S2 Q1 R2).
  - assert (X : s1 = s /\ o1 = [] /\ Forall (fun p => quiet_link (snd p)) ls1).
    { destruct (nth_error (conns s) k) as [cid|]; [|injection St1 as <- <- <-; auto]. destruct (mget cid ls) as [l|] eqn:G; [|injection St1 as <- <- <-; auto].
      destruct (quiet_poll l (Get _ _ G)) as (Q & N). destruct (ql_server_poll l) as [l1 lo]. cbn [fst snd] in Q, N. subst lo. injection St1 as <- <- <-. auto. }
    destruct X as (-> & -> & Q1). exact (IH _ _ _ _ _ S2 Q1 R2).
  - destruct (other ev).
    + destruct (act s ev) as [s0 o0] eqn:Ac. injection St1 as <- <- <-. cbn [app]. rewrite run_cons, Ac. rewrite (IH s0 ls s2 ls2 o2 S2 Ql R2). reflexivity.
    + injection St1 as <- <- <-. exact (IH _ _ _ _ _ S2 Ql R2).
Qed.
End Quiet.

(*@prop C97 is violated, the whole system: a reply socket or publisher listens on QUIC, with or without an authenticator, and every client that connects keeps its connection and writes nothing.  Whatever else happens and however often the futures are polled, exactly the first max_clients connections are admitted, every other one is turned away, and nobody is ever served. *)
Lemma C97_silent_clients_hold_places_refuted_pf :
  (forall m min auth co D addr evs y log, m < 2 ^ 64 -> all_silent evs -> rep_quic (Some m) min auth co D addr (rp_init, []) evs = (y, log) ->
     rep_admitted log = N.min m (arriving evs) /\ rep_refused log = arriving evs - m
     /\ (forall x, In x log -> match x with RAccepted _ | RRefused | RSocketDropped => True | _ => False end))
  /\ (forall m buf min auth co evs y log, m < 2 ^ 64 -> all_silent evs -> pub_quic (Some m) buf min auth co (pb_init, []) evs = (y, log) ->
     pub_admitted log = N.min m (arriving evs) /\ pub_refused log = arriving evs - m
     /\ (forall x, In x log -> match x with QAccepted _ | QRefused | QPublished _ | QPublishErr | QClosed => True | _ => False end)).
Proof.
  split.
  - intros m min auth co D addr evs [s ls] log Lt Si R.
    pose proof (quiet_run _ _ _ _ _ _ _ _ _ (rp_run (Some m) min auth co D) (fun s => eq_refl) (fun s e l => eq_refl) evs rp_init [] s ls log Si (Forall_nil _) R) as Q.
    match type of Q with rp_run _ _ _ _ _ _ ?l = _ => set (es := l) in *; assert (NC : rep_none_completes es /\ rep_arriving es = arriving evs) end.
    { subst es. clear. unfold rep_none_completes, rep_arriving, arriving. induction evs as [|e evs (I1 & I2)]; [split; [constructor|reflexivity]|].
      destruct e as [|c e|k|ev]; cbn [flat_map app filter length]; [split; [constructor; auto|]; lia|auto|auto|].
      destruct ev; cbn [app filter length]; try (split; [constructor; auto|exact I2]); auto. }
    destruct NC as (NC & <-). exact (C97_reply_silent_clients_refuted_pf _ _ _ _ _ _ _ _ Lt NC Q).
  - intros m buf min auth co evs [s ls] log Lt Si R.
    pose proof (quiet_run _ _ _ _ _ _ _ _ _ (pb_run (Some m) buf min auth co) (fun s => eq_refl) (fun s e l => eq_refl) evs pb_init [] s ls log Si (Forall_nil _) R) as Q.
    match type of Q with pb_run _ _ _ _ _ _ ?l = _ => set (es := l) in *; assert (NC : pub_none_completes es /\ pub_arriving es = arriving evs) end.
    { subst es. clear. unfold pub_none_completes, pub_arriving, arriving. induction evs as [|e evs (I1 & I2)]; [split; [constructor|reflexivity]|].
      destruct e as [|c e|k|ev]; cbn [flat_map app filter length]; [split; [constructor; auto|]; lia|auto|auto|].
      destruct ev; cbn [app filter length]; try (split; [constructor; auto|exact I2]); auto. }
    destruct NC as (NC & <-). exact (C97_publisher_silent_clients_refuted_pf _ _ _ _ _ _ _ _ Lt NC Q).
Qed.

(*@example *)
Lemma C97_example_pf :
  (* connected, silent, polled again and again *)
  snd (ql_run ql_init [LServerPoll; LHandshake true; LClientPoll; LServerPoll; LDeliver; LWrite 0; LDeliver; LServerPoll]) = [LConnected; LWrote 0]
  (* the first byte *)
  /\ snd (ql_run ql_init [LHandshake true; LClientPoll; LServerPoll; LWrite 1; LServerPoll; LDeliver; LServerPoll]) = [LConnected; LWrote 1; LAccepted]
  (* three clients, two places *)
  /\ (forall D, snd (rp_run (Some 2) 0 None None D rp_init [VAccept; VAccept; VRecv; VAccept; VDropSocket]) = [RAccepted 0; RAccepted 1; RRefused; RSocketDropped])
  /\ snd (pb_run (Some 1) 4 0 None None pb_init [WAccept; WAccept]) = [QAccepted 0; QRefused]
  (* over QUIC, one place: a silent client, then a second one; and a client that writes *)
  /\ (forall D, snd (rep_quic (Some 1) 0 None None D (fun _ => 7) (rp_init, []) [DArrive; DLink 0 (LHandshake true); DLink 0 LClientPoll; DPoll 0; DArrive; DLink 0 LDeliver; DPoll 0]) = [RAccepted 0; RRefused])
  /\ (forall D, snd (rep_quic (Some 1) 0 None None D (fun _ => 7) (rp_init, []) [DArrive; DLink 0 (LHandshake true); DLink 0 LClientPoll; DPoll 0; DLink 0 (LWrite 5); DLink 0 LDeliver; DPoll 0]) = [RAccepted 0; ROpen 0 7])
  /\ snd (pub_quic (Some 1) 4 0 None None (pb_init, []) [DArrive; DLink 0 (LHandshake true); DLink 0 LClientPoll; DPoll 0; DLink 0 (LWrite 5); DLink 0 LDeliver; DPoll 0]) = [QAccepted 0; QOpen 0].
Proof. repeat split; reflexivity. Qed.
