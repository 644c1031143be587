(** The joint model of a subscriber and a publisher socket: the invariant of a connection. *)
From Coq Require Import ZArith Permutation.
From Verif Require Import Model.Base Model.Map Model.Framed Model.WirePubSub Model.WireAuth Model.Compression Model.Handshake Model.Trie Model.PubDriver Model.SubDriver Model.Net Model.PubSubNet
  Spec.Wire Spec.Stream Spec.AuthSpec
  Proofs.BaseP Proofs.MapP Proofs.FramedP2 Proofs.PubSubP Proofs.AuthP Proofs.HandshakeP Proofs.HandshakeP2 Proofs.NetP
  Proofs.PubSubNetP.
Local Open Scope N_scope.

Section L.
Variables (token : option bytes) (auth : option (bytes -> bool)).
Hypothesis TOK : forall t, token = Some t -> blen t < 2 ^ 32.

Lemma noin_eq (a : pse) f h i g s b : noin a = (f, h, i, g, s, b) -> en_fr a = f /\ en_hs a = h /\ en_items a = i /\ en_greet a = g /\ en_sent a = s /\ en_on a = b.
Proof using. clear TOK. unfold noin. intros H. injection H. auto 7. Qed.

Definition fresh_s (k : plink) : Prop := sview k = (framed_new PSHeader, [], [], [], [], false).

(** The publisher has an authenticator and it accepts the subscriber's token. *)
Definition admitted_client : Prop := exists a t, auth = Some a /\ token = Some t /\ a t = true.

Definition link_ok (k : plink) : Prop :=
  pdir (lk_c k) (lk_s k) /\ pdir (lk_s k) (lk_c k) /\
  (en_on (lk_c k) = false -> cview k = (framed_new PSHeader, [], [], en_greet (lk_c k), [], false)) /\
  (exists b, en_greet (lk_c k) = z_hello token b) /\
  (en_on (lk_c k) = true -> match token with
                            | None => en_hs (lk_c k) = []
                            | Some _ => en_hs (lk_c k) = en_greet (lk_s k) /\ en_greet (lk_s k) = [x01; x01]
                            end) /\
  (en_greet (lk_s k) = [] \/ (en_greet (lk_s k) = [x01; x01] /\ admitted_client) \/ en_greet (lk_s k) = [x01; x00]) /\
  (en_on (lk_s k) = false -> en_items (lk_s k) = [] /\ en_sent (lk_s k) = [] /\ en_fr (lk_s k) = framed_new PSHeader) /\
  (en_on (lk_s k) = true -> match auth with
                            | None => en_greet (lk_s k) = [] /\ en_hs (lk_s k) = []
                            | Some _ => en_hs (lk_s k) = en_greet (lk_c k) /\ admitted_client
                            end).

Lemma hello_head b : z_hello token b = [] \/ exists t, z_hello token b = x01 :: t.
Proof using. clear TOK. unfold z_hello. destruct token as [t|]; [|auto]. destruct b; [|auto]. right. cbn. eexists; reflexivity. Qed.
Lemma reply_head (w : bytes) : w = [] \/ w = [x01; x01] \/ w = [x01; x00] -> w = [] \/ exists t, w = x01 :: t.
Proof using. clear TOK. intros [->|[->| ->]]; eauto. Qed.

Lemma fresh_fields k : fresh_s k -> en_fr (lk_s k) = framed_new PSHeader /\ en_hs (lk_s k) = [] /\ en_items (lk_s k) = [] /\ en_greet (lk_s k) = [] /\ en_sent (lk_s k) = [] /\ en_on (lk_s k) = false.
Proof using. clear TOK. unfold fresh_s, sview, noin. intros H. inversion H. auto 6. Qed.

(** Bytes after an arbitrary own prefix: if the reader's handshake read what the writer's wrote, or the writer's handshake
    bytes are foreign to the reader, items are a prefix of what was sent. *)
Lemma dir_items (a b : pse) : pdir a b -> Forall ps_wf (en_sent a) ->
  (en_hs b = en_greet a \/ (en_hs b = [] /\ (en_greet a = [] \/ exists t, en_greet a = x01 :: t))) -> prefix_of (en_items b) (en_sent a).
Proof using. clear TOK.
  intros (D1 & D2 & D3 & D4) W [H|[H G]].
  - rewrite D3, H, <- !app_assoc in D1. apply app_inv_head in D1. eapply (items_prefix ps_decode ps_encode PSHeader ps_wf); [intros; apply ps_decode_encode; assumption|exact D4|exact W| |apply ps_nonempty|reflexivity].
    rewrite <- (app_nil_r (pencs (en_sent a))) in D1. exact D1.
  - rewrite D3, H in D1. cbn [app] in D1. rewrite <- !app_assoc in D1. destruct G as [G|(t & G)]; rewrite G in D1.
    + cbn [app] in D1. eapply (items_prefix ps_decode ps_encode PSHeader ps_wf); [intros; apply ps_decode_encode; assumption|exact D4|exact W| |apply ps_nonempty|reflexivity].
      rewrite <- (app_nil_r (pencs (en_sent a))) in D1. exact D1.
    + assert (E : en_items b = []) by (eapply (foreign_items ps_encode x03 ps_head); [exact D1|exists x01, t; split; [reflexivity|discriminate]]). rewrite E. exists (en_sent a). reflexivity.
Qed.
Lemma hs_s k : link_ok k -> en_on (lk_s k) = true -> en_hs (lk_s k) = en_greet (lk_c k) \/ (en_hs (lk_s k) = [] /\ (en_greet (lk_c k) = [] \/ exists t, en_greet (lk_c k) = x01 :: t)).
Proof using. clear TOK.
  intros (_ & _ & _ & (b & G) & _ & _ & _ & S) On. specialize (S On). destruct auth; [left; apply S|right]. split; [apply S|]. rewrite G. apply hello_head.
Qed.
Lemma hs_c k : link_ok k -> en_on (lk_c k) = true -> en_hs (lk_c k) = en_greet (lk_s k) \/ (en_hs (lk_c k) = [] /\ (en_greet (lk_s k) = [] \/ exists t, en_greet (lk_s k) = x01 :: t)).
Proof using. clear TOK.
  intros (_ & _ & _ & _ & C & R & _) On. specialize (C On). destruct token; [left; apply C|right]. split; [exact C|]. apply reply_head. tauto.
Qed.
Lemma items_s k : link_ok k -> Forall ps_wf (en_sent (lk_c k)) -> prefix_of (en_items (lk_s k)) (en_sent (lk_c k)).
Proof using. clear TOK.
  intros K W. destruct (en_on (lk_s k)) eqn:On.
  - apply dir_items; [apply K|exact W|]. apply hs_s; assumption.
  - destruct K as (_ & _ & _ & _ & _ & _ & S & _). destruct (S On) as (-> & _). exists (en_sent (lk_c k)). reflexivity.
Qed.
Lemma items_c k : link_ok k -> Forall ps_wf (en_sent (lk_s k)) -> prefix_of (en_items (lk_c k)) (en_sent (lk_s k)).
Proof using. clear TOK.
  intros K W. destruct (en_on (lk_c k)) eqn:On.
  - apply dir_items; [apply K|exact W|]. apply hs_c; assumption.
  - destruct K as (_ & _ & C & _). specialize (C On). apply noin_eq in C. destruct C as (_ & _ & H3 & _). rewrite H3. exists (en_sent (lk_s k)). reflexivity.
Qed.
Lemma no_items_s k : link_ok k -> en_sent (lk_c k) = [] -> en_items (lk_s k) = [].
Proof using. clear TOK. intros K E. destruct (items_s k K) as [r H]; [rewrite E; constructor|]. rewrite E in H. destruct (en_items (lk_s k)); [reflexivity|discriminate]. Qed.

(** A new connection, with the client's first bytes on it. *)
Lemma link_ok_new b : link_ok (link_c_greet (z_hello token b) plink0) /\ fresh_s (link_c_greet (z_hello token b) plink0).
Proof using. clear TOK.
  split; [|reflexivity]. split; [|split; [|split; [|split; [|split; [|split; [|split]]]]]]; cbn; try discriminate; auto.
  - apply (dir_greet ps_encode ps_ok ps_held ps_wf (end_new PSHeader) (end_new PSHeader)); [|reflexivity]. apply (dir_new ps_encode PSHeader ps_ok ps_held I eq_refl ps_wf).
  - eapply dir_eq; [apply (dir_new ps_encode PSHeader ps_ok ps_held I eq_refl ps_wf)|reflexivity..].
  - exists b. reflexivity.
Qed.

(** ** Steps of the client *)
(** The client's handshake succeeded. *)
Lemma client_hs k ok input w rest : link_ok k -> en_on (lk_c k) = false -> en_sent (lk_s k) = [] ->
  pipe_offers input (en_in (lk_c k)) = true -> auth_client token ok input = (ClOk, w, rest) ->
  link_ok (mkLink (end_on (end_hs input rest (lk_c k))) (lk_s k)).
Proof using. clear TOK.
  intros (K1 & K2 & K3 & K4 & K5 & K6 & K7 & K8) On Se Of A. specialize (K3 On). apply noin_eq in K3. destruct K3 as (F1 & F2 & F3 & _ & F5 & F6).
  assert (X : exists used, input = used ++ rest /\ match token with None => used = [] | Some _ => io_data used = en_greet (lk_s k) /\ io_data used = [x01; x01] end).
  { destruct token as [t|]; [|unfold auth_client in A; inversion A; subst; exists []; auto].
    apply auth_client_ok in A. destruct A as (-> & -> & used & v & lost & -> & R & Hv). exists used. split; [reflexivity|].
    rewrite io_data_received, R.
    destruct K2 as (D1 & D2 & D3 & D4). rewrite D3, F1, F2, F3, Se in D1. cbn [encs map concat app framed_new fr_codec fr_buf ps_held] in D1. rewrite app_nil_r in D1.
    destruct (read_used _ _ _ Of) as (_ & more & T & _). rewrite T, io_data_received, R in D1. cbn [app] in D1.
    destruct K6 as [K6|[[K6 _]|K6]]; rewrite K6 in D1 |- *; try discriminate; inversion D1 as [[E1 E2]]; apply app_eq_nil in E2; destruct E2 as [-> _]; split; congruence. }
  destruct X as (used & -> & X).
  destruct (pdir_hs (lk_s k) (lk_c k) used rest K2 Of F3 F1) as [H1 H2].
  split; [|split; [|split; [|split; [|split; [|split; [|split]]]]]]; cbn [lk_c lk_s].
  - eapply dir_eq; [exact K1|reflexivity..].
  - eapply dir_eq; [exact H1|reflexivity..].
  - discriminate.
  - exact K4.
  - intros _. cbn [end_on en_hs]. change (en_hs (end_hs (used ++ rest) rest (lk_c k))) with (en_hs (end_hs (used ++ rest) rest (lk_c k))). rewrite H2, F2. cbn [app].
    destruct token; [|subst; reflexivity]. destruct X as [X1 X2]. rewrite <- X1. auto.
  - exact K6.
  - exact K7.
  - exact K8.
Qed.
Lemma client_poll k input r c : link_ok k -> en_on (lk_c k) = true -> pipe_offers input (en_in (lk_c k)) = true -> ps_poll input (lk_c k) = (r, c) ->
  r <> PPanic /\ link_ok (mkLink c (lk_s k)) /\ en_items c = en_items (lk_c k) ++ match r with PItem m => [m] | _ => [] end /\ en_sent c = en_sent (lk_c k) /\ en_on c = true.
Proof using. clear TOK.
  intros (K1 & K2 & K3 & K4 & K5 & K6 & K7 & K8) On Of P. destruct (pdir_poll _ _ _ _ _ K2 Of P) as (P1 & P2 & P3 & P4 & P5 & P6 & P7).
  split; [exact P1|]. split; [|split; [exact P3|]; split; [exact P6|congruence]].
  split; [|split; [|split; [|split; [|split; [|split; [|split]]]]]]; cbn [lk_c lk_s].
  - eapply dir_eq; [exact K1|assumption|assumption|reflexivity..].
  - exact P2.
  - congruence.
  - rewrite P5. exact K4.
  - rewrite P4, P7. exact K5.
  - exact K6.
  - exact K7.
  - rewrite P5. exact K8.
Qed.
Lemma client_send k ms : link_ok k -> en_on (lk_c k) = true -> link_ok (link_c_send ps_encode ms k).
Proof using. clear TOK.
  intros (K1 & K2 & K3 & K4 & K5 & K6 & K7 & K8) On.
  split; [|split; [|split; [|split; [|split; [|split; [|split]]]]]]; cbn [lk_c lk_s link_c_send].
  - apply (dir_send ps_encode ps_ok ps_held ps_wf (lk_c k) (lk_s k)). exact K1.
  - eapply dir_eq; [exact K2|reflexivity..].
  - cbn [end_send en_on]. congruence.
  - exact K4.
  - exact K5.
  - exact K6.
  - exact K7.
  - exact K8.
Qed.

(** ** Steps of the server *)
Lemma server_open k : link_ok k -> fresh_s k -> auth = None -> link_ok (mkLink (lk_c k) (end_on (lk_s k))).
Proof using. clear TOK.
  intros (K1 & K2 & K3 & K4 & K5 & K6 & K7 & K8) Fr An. apply fresh_fields in Fr. destruct Fr as (F1 & F2 & F3 & F4 & F5 & F6).
  split; [|split; [|split; [|split; [|split; [|split; [|split]]]]]]; cbn [lk_c lk_s]; try assumption.
  - cbn [end_on en_on]. discriminate.
  - intros _. rewrite An. auto.
Qed.
Lemma server_read k input rest : link_ok k -> fresh_s k -> pipe_offers input (en_in (lk_s k)) = true ->
  (exists used, input = used ++ rest) -> link_ok (mkLink (lk_c k) (end_hs input rest (lk_s k))).
Proof using. clear TOK.
  intros (K1 & K2 & K3 & K4 & K5 & K6 & K7 & K8) Fr Of (used & ->). apply fresh_fields in Fr. destruct Fr as (F1 & F2 & F3 & F4 & F5 & F6).
  destruct (pdir_hs (lk_c k) (lk_s k) used rest K1 Of F3 F1) as [H1 H2].
  split; [|split; [|split; [|split; [|split; [|split; [|split]]]]]]; cbn [lk_c lk_s].
  - exact H1.
  - eapply dir_eq; [exact K2|reflexivity..].
  - exact K3.
  - exact K4.
  - exact K5.
  - exact K6.
  - cbn [end_hs en_on en_items en_sent en_fr]. intros _. auto.
  - cbn [end_hs en_on]. rewrite F6. discriminate.
Qed.
Lemma server_refuse k w input rest : link_ok k -> fresh_s k -> pipe_offers input (en_in (lk_s k)) = true -> w = [] \/ w = [x01; x00] ->
  (exists used, input = used ++ rest) -> link_ok (link_s_greet w (mkLink (lk_c k) (end_hs input rest (lk_s k)))).
Proof using. clear TOK.
  intros (K1 & K2 & K3 & K4 & K5 & K6 & K7 & K8) Fr Of A (used & ->). apply fresh_fields in Fr. destruct Fr as (F1 & F2 & F3 & F4 & F5 & F6).
  destruct (pdir_hs (lk_c k) (lk_s k) used rest K1 Of F3 F1) as [H1 H2].
  split; [|split; [|split; [|split; [|split; [|split; [|split]]]]]]; cbn [lk_c lk_s link_s_greet].
  - eapply dir_eq; [exact H1|reflexivity..].
  - eapply dir_eq; [apply (dir_greet ps_encode ps_ok ps_held ps_wf (lk_s k) (lk_c k) w K2 F5)|reflexivity..].
  - exact K3.
  - exact K4.
  - cbn [end_get en_on end_greet end_hs en_greet]. intros On. specialize (K5 On). cbn [en_hs]. destruct token; [|exact K5]. exfalso. destruct K5 as [_ K5]. congruence.
  - cbn [end_greet end_hs en_greet]. rewrite F4. cbn [app]. destruct A as [->| ->]; auto.
  - cbn [end_greet end_hs en_on en_items en_sent en_fr]. intros _. auto.
  - cbn [end_greet end_hs en_on]. rewrite F6. discriminate.
Qed.
Lemma server_hs k ok a input id w rest : auth = Some a -> link_ok k -> fresh_s k -> pipe_offers input (en_in (lk_s k)) = true -> auth_server a ok input = (AuthOk id, w, rest) ->
  let k' := link_s_greet w (mkLink (lk_c k) (end_hs input rest (lk_s k))) in
  link_ok (mkLink (lk_c k') (end_on (lk_s k'))).
Proof using TOK.
  intros Au (K1 & K2 & K3 & K4 & K5 & K6 & K7 & K8) Fr Of A. apply fresh_fields in Fr. destruct Fr as (F1 & F2 & F3 & F4 & F5 & F6).
  apply auth_server_ok in A. destruct A as (-> & Ai & -> & used & frame & over & -> & Af & R).
  assert (X : io_data used = en_greet (lk_c k) /\ admitted_client).
  { destruct K1 as (D1 & D2 & D3 & D4). rewrite D3, F1, F2, F3 in D1. cbn [encs map concat app framed_new fr_codec fr_buf ps_held] in D1.
    destruct (read_used _ _ _ Of) as (_ & more & T & _). rewrite T, io_data_received, R in D1.
    destruct Af as (szb & Hb & ->). destruct K4 as (b & G). rewrite G in D1 |- *. unfold z_hello in *.
    assert (No : forall y, (x01 :: szb ++ id) ++ y <> pencs (en_sent (lk_c k))).
    { intros y. destruct (en_sent (lk_c k)) as [|m ms]; cbn; discriminate. }
    destruct token as [t|] eqn:Tk; [destruct b|].
    - assert (Ns : en_sent (lk_c k) = []).
      { destruct (en_on (lk_c k)) eqn:On; [destruct (K5 eq_refl); congruence|]. specialize (K3 eq_refl). apply noin_eq in K3. apply K3. }
      rewrite Ns in D1. cbn [encs map concat] in D1. rewrite app_nil_r in D1. rewrite io_data_received, R.
      assert (L : blen t < 2 ^ 32) by (apply TOK; reflexivity).
      change (fst (au_encode au_client (AuthM t))) with (x01 :: put_be 4 (as_u32 (blen t)) ++ t) in *.
      unfold as_u32 in *. rewrite N.mod_small in * by exact L. remember (put_be 4 (blen t)) as pb eqn:Ep.
      cbn [app] in D1. injection D1 as D1'. rewrite <- !app_assoc in D1'. apply app_same_len in D1'; [|destruct Hb as [Hb _]; rewrite Hb, Ep, put_be_length; reflexivity].
      destruct D1' as [-> D1'].
      assert (Li : length id = length t).
      { destruct Hb as [_ Hb]. rewrite Ep, be_value_put in Hb. rewrite N.mod_small in Hb by exact L. unfold blen in Hb. lia. }
      rewrite <- (app_nil_r t) in D1' at 1. apply app_same_len in D1'; [|exact Li]. destruct D1' as [-> D1']. apply app_eq_nil in D1'. destruct D1' as [-> _].
      rewrite app_nil_r. split; [reflexivity|]. exists a, t. auto.
    - exfalso. cbn [app] in D1. rewrite <- app_assoc in D1. eapply No; exact D1.
    - exfalso. cbn [app] in D1. rewrite <- app_assoc in D1. eapply No; exact D1. }
  destruct (pdir_hs (lk_c k) (lk_s k) used rest K1 Of F3 F1) as [H1 H2].
  split; [|split; [|split; [|split; [|split; [|split; [|split]]]]]]; cbn [lk_c lk_s link_s_greet].
  - eapply dir_eq; [exact H1|reflexivity..].
  - eapply dir_eq; [apply (dir_greet ps_encode ps_ok ps_held ps_wf (lk_s k) (lk_c k) [x01; x01] K2 F5)|reflexivity..].
  - exact K3.
  - exact K4.
  - cbn [end_get en_on end_greet end_hs en_greet end_on]. intros On. specialize (K5 On). cbn [en_hs]. destruct token; [|exact K5]. exfalso. destruct K5 as [_ K5]. congruence.
  - cbn [end_greet end_hs en_greet end_on]. rewrite F4. right; left. split; [reflexivity|apply X].
  - cbn [end_on en_on]. discriminate.
  - intros _. rewrite Au. cbn [end_on end_greet en_hs end_get en_greet]. rewrite H2, F2. exact X.
Qed.
Lemma server_poll k input r c : link_ok k -> en_on (lk_s k) = true -> pipe_offers input (en_in (lk_s k)) = true -> ps_poll input (lk_s k) = (r, c) ->
  r <> PPanic /\ link_ok (mkLink (lk_c k) c) /\ en_items c = en_items (lk_s k) ++ match r with PItem m => [m] | _ => [] end /\ en_sent c = en_sent (lk_s k) /\ en_on c = true.
Proof using. clear TOK.
  intros (K1 & K2 & K3 & K4 & K5 & K6 & K7 & K8) On Of P. destruct (pdir_poll _ _ _ _ _ K1 Of P) as (P1 & P2 & P3 & P4 & P5 & P6 & P7).
  split; [exact P1|]. split; [|split; [exact P3|]; split; [exact P6|congruence]].
  split; [|split; [|split; [|split; [|split; [|split; [|split]]]]]]; cbn [lk_c lk_s].
  - exact P2.
  - eapply dir_eq; [exact K2|assumption|assumption|reflexivity..].
  - exact K3.
  - exact K4.
  - rewrite P5. exact K5.
  - rewrite P5. exact K6.
  - congruence.
  - rewrite P4, P5, P7. exact K8.
Qed.
Lemma server_send k ms : link_ok k -> en_on (lk_s k) = true -> link_ok (link_s_send ps_encode ms k).
Proof using. clear TOK.
  intros (K1 & K2 & K3 & K4 & K5 & K6 & K7 & K8) On.
  split; [|split; [|split; [|split; [|split; [|split; [|split]]]]]]; cbn [lk_c lk_s link_s_send].
  - eapply dir_eq; [exact K1|reflexivity..].
  - apply (dir_send ps_encode ps_ok ps_held ps_wf (lk_s k) (lk_c k)). exact K2.
  - exact K3.
  - exact K4.
  - exact K5.
  - exact K6.
  - cbn [end_send en_on]. congruence.
  - exact K8.
Qed.
End L.
