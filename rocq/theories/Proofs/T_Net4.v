(** A request socket and a reply socket joined by connections: nothing is stuck (C76). *)
From Coq Require Import List NArith.
From Verif Require Import Model.Base Model.Map Model.Framed Model.WireReqRep Model.WireAuth Model.Compression Model.Handshake
  Model.ReqDriver Model.RepDriver Model.Net Model.ReqRepNet Spec.CompressSpec Spec.ReqSpec Spec.RepSpec Spec.NetSpec Spec.NetSpec3.
Import ListNotations.
Open Scope N_scope.
(*HEADEND*)
From Coq Require Import ZArith Lia.
From Verif Require Import Proofs.BaseP Proofs.MapP Proofs.ReqRepNetP7.

(** ** C76 *)
(*@prop A connection at rest has nothing stuck in it: if everything written on it in either direction has been read and the server's
    session has nothing to write, then every call whose request was written on it has its result, or the server has its request
    and has not answered it (the application has it, or discarded it, or could not get it; or its answer could not be compressed):
    whatever happened before. *)
Lemma C76_nothing_stuck_on_a_connection_pf :
  forall (o : ropts) (token : option bytes) (cco : option compressor) (max : option N) (min : N)
         (auth : option (bytes -> bool)) (sco : option compressor) (D : decompressors) (evs : list yev) cid l t c m,
  let y := y_run o token cco max min auth sco D evs in
  (forall t, token = Some t -> blen t < 2 ^ 32) -> blen (asked evs) < 2 ^ 32 -> frames_fit y ->
  client_connection y cid l -> drained y l -> session_idle (sy_s y) cid ->
  In (Accept t c m) (sy_clog y) -> written_on y l m ->
  has_result y c \/ exists rid, In (rid, m) (requests_on cid (sy_slog y)) /\ unanswered y cid rid.
Proof. intros. eapply frame_at_rest; eassumption. Qed.

(*@prop If the client, too, has nothing to write, the same holds of every call ever made, except those whose request was lost with
    another connection (it was written on one, or writing it failed): the server has a request with exactly this payload. *)
Lemma C76_every_call_accounted_for_pf :
  forall (o : ropts) (token : option bytes) (cco : option compressor) (max : option N) (min : N)
         (auth : option (bytes -> bool)) (sco : option compressor) (D : decompressors) (evs : list yev) cid l c p,
  let y := y_run o token cco max min auth sco D evs in
  (forall t, token = Some t -> blen t < 2 ^ 32) -> blen (asked evs) < 2 ^ 32 -> frames_fit y ->
  (forall cm, cco = Some cm -> inverse_of D cm) -> NoDup (map fst (asked evs)) ->
  client_connection y cid l -> drained y l -> session_idle (sy_s y) cid -> client_idle (sy_c y) ->
  In (c, p) (asked evs) ->
  has_result y c \/
  exists t m, In (Accept t c m) (sy_clog y) /\ try_decompress D (rr_ctype m) (rr_payload m) = Some p /\
    (In (Handed m false) (sy_clog y) \/ (exists l', l' <> l /\ written_on y l' m) \/
     exists rid, In (rid, m) (requests_on cid (sy_slog y)) /\ unanswered y cid rid).
Proof. intros. eapply call_at_rest; eassumption. Qed.

(*@prop So with one connection that never failed, and a server application that answered every request it was sent: when nothing is
    left to write or read, every call has its result. *)
Lemma C76_every_call_has_a_result_pf :
  forall (o : ropts) (token : option bytes) (cco : option compressor) (max : option N) (min : N)
         (auth : option (bytes -> bool)) (sco : option compressor) (D : decompressors) (evs : list yev) cid l c p,
  let y := y_run o token cco max min auth sco D evs in
  (forall t, token = Some t -> blen t < 2 ^ 32) -> blen (asked evs) < 2 ^ 32 -> frames_fit y ->
  (forall cm, cco = Some cm -> inverse_of D cm) -> NoDup (map fst (asked evs)) ->
  client_connection y cid l -> (forall l' m, written_on y l' m -> l' = l) -> (forall m, ~ In (Handed m false) (sy_clog y)) ->
  drained y l -> session_idle (sy_s y) cid -> client_idle (sy_c y) ->
  (forall rid, ~ unanswered y cid rid) ->
  In (c, p) (asked evs) -> has_result y c.
Proof.
  intros o token cco max min auth sco D evs cid l c p y T Lt F Ic Nd Hc One Nf Dr Se Ci Un Hp.
  destruct (call_at_rest o token cco max min auth sco D T evs cid l c p Lt F Ic Nd Hc Dr Se Ci Hp) as [H|(t & m & _ & _ & [H|[(l' & Ne & H)|(rid & _ & H)]])]; [exact H|exfalso..].
  - eapply Nf; exact H.
  - apply Ne, (One _ _ H).
  - eapply Un; exact H.
Qed.

Ltac ins := repeat (first [left; reflexivity | right]).
(*@example The run of C53: while the server application has both requests, neither call has a result, and both connections' ends are at
    rest; at the end both calls have theirs, and the hypotheses of the last theorem hold. *)
Lemma C76_example_pf :
  forall D : decompressors,
  (let y := y_run ex_opts (Some nx_tok) None None 0 (Some nx_auth) None D (firstn 17 nx_evs) in
   frames_fit y /\ client_connection y 0 0 /\ drained y 0 /\ session_idle (sy_s y) 0 /\ client_idle (sy_c y) /\
   (exists t m, In (Accept t 7 m) (sy_clog y) /\ written_on y 0 m) /\ In (7, [x41]) (asked (firstn 17 nx_evs)) /\
   ~ has_result y 7 /\ unanswered y 0 0) /\
  (let y := y_run ex_opts (Some nx_tok) None None 0 (Some nx_auth) None D nx_evs in
   frames_fit y /\ client_connection y 0 0 /\ (forall l' m, written_on y l' m -> l' = 0) /\ (forall m, ~ In (Handed m false) (sy_clog y)) /\
   drained y 0 /\ session_idle (sy_s y) 0 /\ client_idle (sy_c y) /\ (forall rid, ~ unanswered y 0 rid) /\
   NoDup (map fst (asked nx_evs)) /\ In (8, [x42]) (asked nx_evs) /\ has_result y 8).
Proof.
  intros D. split; cbv zeta.
  - let v := eval vm_compute in (y_run ex_opts (Some nx_tok) None None 0 (Some nx_auth) None D (firstn 17 nx_evs)) in
      assert (E : y_run ex_opts (Some nx_tok) None None 0 (Some nx_auth) None D (firstn 17 nx_evs) = v) by (vm_compute; reflexivity).
    rewrite E. clear E.
    split; [split; cbn; intros m H; repeat (destruct H as [<-|H]; [reflexivity|]); destruct H|].
    split; [reflexivity|]. split; [eexists; repeat (split; [reflexivity|]); split; repeat split; reflexivity|].
    split; [exists 5; eexists; split; [reflexivity|]; repeat (split; [reflexivity|]); intros rid id H; cbn in H; repeat (destruct H as [H|H]; [inversion H; subst; reflexivity|]); destruct H|].
    split; [split; reflexivity|].
    split; [do 2 eexists; split; [cbn; ins|eexists; split; [reflexivity|cbn; ins]]|].
    split; [cbn; ins|].
    split; [intros (r & H); cbn in H; repeat (destruct H as [H|H]; [discriminate|]); exact H|].
    left; left; cbn; ins.
  - let v := eval vm_compute in (y_run ex_opts (Some nx_tok) None None 0 (Some nx_auth) None D nx_evs) in
      assert (E : y_run ex_opts (Some nx_tok) None None 0 (Some nx_auth) None D nx_evs = v) by (vm_compute; reflexivity).
    rewrite E. clear E.
    split; [split; cbn; intros m H; repeat (destruct H as [<-|H]; [reflexivity|]); destruct H|].
    split; [reflexivity|].
    split; [intros l' m (k & H & _); cbn in H; destruct (eq_dec l' 0) as [->|]; [reflexivity|discriminate H]|].
    split; [intros m H; cbn in H; repeat (destruct H as [H|H]; [discriminate|]); exact H|].
    split; [eexists; repeat (split; [reflexivity|]); split; repeat split; reflexivity|].
    split; [exists 5; eexists; split; [reflexivity|]; repeat (split; [reflexivity|]); intros rid id H; cbn in H; repeat (destruct H as [H|H]; [inversion H; subst; reflexivity|]); destruct H|].
    split; [split; reflexivity|].
    split. { intros rid [[H|(q & H & _)]|[H|[H|H]]]; cbn in H; try exact H; repeat (destruct H as [H|H]; [discriminate|]); exact H. }
    split; [cbn; repeat constructor; cbn; intuition discriminate|].
    split; [cbn; ins|]. eexists; cbn; ins.
Qed.
