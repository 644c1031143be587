(** A request socket and a reply socket joined by connections: C53. *)
From Coq Require Import List NArith Sorting.Sorted.
From Verif Require Import Model.Base Model.Map Model.Framed Model.WireReqRep Model.WireAuth Model.Compression Model.Handshake
  Model.ReqDriver Model.RepDriver Model.Net Model.ReqRepNet Spec.CompressSpec Spec.ReqSpec Spec.RepSpec Spec.NetSpec.
Import ListNotations.
Open Scope N_scope.
(*HEADEND*)
From Coq Require Import ZArith Lia.
From Verif Require Import Proofs.BaseP Proofs.MapP Proofs.ReqRepNetP6.

(** ** C53 *)
(*@prop Every call of request() that returns Ok(x) was made by the client application with some payload [p], and the server
    application received a request with exactly this payload and responded to it with [x]: for every sequence of at most
    2^32 - 1 calls, every interleaving of the two sides, every fragmentation of the byte streams, every number of broken
    connections and reconnects, every other client of the server, with or without authentication and compression on either
    side.  The token and the frames fit the 32-bit length fields, and the compressors are inverse to their decompressors. *)
Lemma C53_ok_is_the_servers_answer_pf :
  forall (o : ropts) (token : option bytes) (cco : option compressor) (max : option N) (min : N)
         (auth : option (bytes -> bool)) (sco : option compressor) (D : decompressors) (evs : list yev) c x,
  let y := y_run o token cco max min auth sco D evs in
  (forall t, token = Some t -> blen t < 2 ^ 32) ->
  blen (asked evs) < 2 ^ 32 -> frames_fit y ->
  (forall cm, cco = Some cm -> inverse_of D cm) -> (forall cm, sco = Some cm -> inverse_of D cm) ->
  In (Resolve c (OOk x)) (sy_clog y) ->
  exists p addr rid,
    In (c, p) (asked evs) /\ In (RReceived (mkReq addr rid p)) (sy_slog y) /\ In (RResponded rid x true) (sy_slog y).
Proof. intros. eapply end_to_end; eassumption. Qed.

(*@prop If the server application answers each request payload [q] with [f q], then each request(q) that returns Ok returns
    [f q]. *)
Lemma C53_ok_is_f_of_the_request_pf :
  forall (f : bytes -> bytes) (o : ropts) (token : option bytes) (cco : option compressor) (max : option N) (min : N)
         (auth : option (bytes -> bool)) (sco : option compressor) (D : decompressors) (evs : list yev) c q x,
  let y := y_run o token cco max min auth sco D evs in
  (forall t, token = Some t -> blen t < 2 ^ 32) ->
  blen (asked evs) < 2 ^ 32 -> frames_fit y ->
  (forall cm, cco = Some cm -> inverse_of D cm) -> (forall cm, sco = Some cm -> inverse_of D cm) ->
  NoDup (map fst (asked evs)) -> answers_with f (sy_slog y) ->
  In (c, q) (asked evs) -> In (Resolve c (OOk x)) (sy_clog y) -> x = f q.
Proof.
  intros f o token cco max min auth sco D evs c q x y T L F Ic Is Nd An Hq Hr.
  destruct (end_to_end o token cco max min auth sco D T evs c x L F Ic Is Hr) as (p & addr & rid & Hp & Hg & Hx).
  assert (p = q). { clear - Nd Hp Hq. induction (asked evs) as [|[c' p'] l IH]; [contradiction|]. cbn in Nd. inversion Nd as [|? ? Hn Nd']; subst.
    destruct Hp as [Hp|Hp], Hq as [Hq|Hq]; [congruence|inversion Hp; subst; exfalso; apply Hn, (in_map fst _ _ Hq)|inversion Hq; subst; exfalso; apply Hn, (in_map fst _ _ Hp)|auto]. }
  subst p. eapply An; eassumption.
Qed.

(*@prop The server receives the requests of one connection in the order of the calls, those of an earlier connection are
    earlier calls than those of a later one, and each call's request at most once, on whatever connection. *)
Lemma C53_requests_in_order_at_most_once_pf :
  forall (o : ropts) (token : option bytes) (cco : option compressor) (max : option N) (min : N)
         (auth : option (bytes -> bool)) (sco : option compressor) (D : decompressors) (evs : list yev),
  let y := y_run o token cco max min auth sco D evs in
  (forall t, token = Some t -> blen t < 2 ^ 32) ->
  blen (asked evs) < 2 ^ 32 -> frames_fit y ->
  (forall cid l, client_connection y cid l -> StronglySorted N.lt (map rr_id (map snd (requests_on cid (sy_slog y))))) /\
  (forall cid1 l1 cid2 l2 m1 m2, client_connection y cid1 l1 -> client_connection y cid2 l2 -> l1 < l2 ->
     In m1 (map snd (requests_on cid1 (sy_slog y))) -> In m2 (map snd (requests_on cid2 (sy_slog y))) -> rr_id m1 < rr_id m2) /\
  (forall cid1 l1 cid2 l2 r1 r2 m1 m2, client_connection y cid1 l1 -> client_connection y cid2 l2 ->
     In (r1, m1) (requests_on cid1 (sy_slog y)) -> In (r2, m2) (requests_on cid2 (sy_slog y)) -> rr_id m1 = rr_id m2 ->
     cid1 = cid2 /\ r1 = r2).
Proof.
  intros o token cco max min auth sco D evs y T L F. destruct (in_order o token cco max min auth sco D T evs L F) as (A & B & C). fold y in A, B, C.
  split; [exact A|]. split; [exact B|]. intros cid1 l1 cid2 l2 r1 r2 m1 m2 H1 H2 I1 I2 E.
  assert (El : l1 = l2). { destruct (N.lt_trichotomy l1 l2) as [Hl|[Hl|Hl]]; [|exact Hl|].
    - pose proof (B _ _ _ _ m1 m2 H1 H2 Hl (in_map snd _ _ I1) (in_map snd _ _ I2)). lia.
    - pose proof (B _ _ _ _ m2 m1 H2 H1 Hl (in_map snd _ _ I2) (in_map snd _ _ I1)). lia. }
  subst l2. assert (cid1 = cid2) by eauto. subst cid2. split; [reflexivity|]. specialize (A _ _ H1). clear - A I1 I2 E.
  induction (requests_on cid1 (sy_slog y)) as [|[r m] l IH]; [contradiction|]. cbn in A. inversion A as [|? ? A1 A2]; subst. rewrite Forall_forall in A2.
  assert (X : forall r' m', In (r', m') l -> rr_id m < rr_id m') by (intros r' m' H; apply A2; rewrite map_map; apply (in_map (fun z => rr_id (snd z)) _ _ H)).
  destruct I1 as [I1|I1], I2 as [I2|I2]; [congruence|inversion I1; subst; apply X in I2; lia|inversion I2; subst; apply X in I1; lia|auto].
Qed.

(*@prop Each request the server receives from the client is one of the calls, with its payload: the frame with id [n] is call
    number [n]. *)
Lemma C53_requests_are_genuine_pf :
  forall (o : ropts) (token : option bytes) (cco : option compressor) (max : option N) (min : N)
         (auth : option (bytes -> bool)) (sco : option compressor) (D : decompressors) (evs : list yev),
  let y := y_run o token cco max min auth sco D evs in
  (forall t, token = Some t -> blen t < 2 ^ 32) ->
  blen (asked evs) < 2 ^ 32 -> frames_fit y -> (forall cm, cco = Some cm -> inverse_of D cm) ->
  forall cid l rid m, client_connection y cid l -> In (rid, m) (requests_on cid (sy_slog y)) ->
  exists c p, nth_error (asked evs) (N.to_nat (rr_id m)) = Some (c, p) /\ try_decompress D (rr_ctype m) (rr_payload m) = Some p.
Proof. intros. eapply genuine; eassumption. Qed.

(*@example *)
Lemma C53_example_pf :
  forall D : decompressors,
  let y := y_run ex_opts (Some nx_tok) None None 0 (Some nx_auth) None D nx_evs in
  blen nx_tok < 2 ^ 32 /\ blen (asked nx_evs) < 2 ^ 32 /\ frames_fit y /\ NoDup (map fst (asked nx_evs)) /\
  answers_with nx_f (sy_slog y) /\
  In (Resolve 7 (OOk [x61; x61])) (sy_clog y) /\ In (Resolve 8 (OOk [x62; x62])) (sy_clog y) /\
  client_connection y 0 0 /\ map fst (requests_on 0 (sy_slog y)) = [0; 1].
Proof.
  intros D. cbv zeta.
  let v := eval vm_compute in (sy_clog (y_run ex_opts (Some nx_tok) None None 0 (Some nx_auth) None D nx_evs)) in
  assert (Ec : sy_clog (y_run ex_opts (Some nx_tok) None None 0 (Some nx_auth) None D nx_evs) = v) by (vm_compute; reflexivity).
  let v := eval vm_compute in (sy_slog (y_run ex_opts (Some nx_tok) None None 0 (Some nx_auth) None D nx_evs)) in
  assert (Es : sy_slog (y_run ex_opts (Some nx_tok) None None 0 (Some nx_auth) None D nx_evs) = v) by (vm_compute; reflexivity).
  assert (Ei : sy_cids (y_run ex_opts (Some nx_tok) None None 0 (Some nx_auth) None D nx_evs) = [(0, 0)]) by (vm_compute; reflexivity).
  remember (y_run ex_opts (Some nx_tok) None None 0 (Some nx_auth) None D nx_evs) as y. clear Heqy.
  split; [vm_compute; reflexivity|]. split; [vm_compute; reflexivity|].
  split. { unfold frames_fit. rewrite Ec, Es. split; cbn [taken taken_frames flat_map app In]; intros m H; repeat (destruct H as [<-|H]; [vm_compute; reflexivity|]); contradiction. }
  split. { cbn. repeat constructor; cbn; intuition discriminate. }
  split. { unfold answers_with. rewrite Es. intros addr rid q x H1 H2. cbn [In] in H1, H2.
    repeat (destruct H1 as [H1|H1]; [try discriminate; inversion H1; subst; clear H1; repeat (destruct H2 as [H2|H2]; [try discriminate; inversion H2; subst; reflexivity|]); contradiction|]). contradiction. }
  unfold client_connection. rewrite Ec, Es, Ei.
  split; [repeat (first [left; reflexivity | right])|]. split; [repeat (first [left; reflexivity | right])|].
  split; vm_compute; reflexivity.
Qed.
