(** GENERATED by tools/gen_props.py from Proofs/T_Listen.v: statements only. *)

(** C93: a listener that fails does no harm. *)
From Coq Require Import List NArith.
From Verif Require Import Model.Base Model.Map Model.Stats Model.Framed Model.WireReqRep Model.WirePubSub Model.WireAuth Model.Compression Model.Trie Model.Handshake Model.ReqDriver Model.RepDriver Model.PubDriver
  Spec.RepSpec Spec.ListenSpec.
Import ListNotations.
Open Scope N_scope.
From Verif Require Import Proofs.T_Listen.

(** Reply socket.  In any history, at any point where there is room for another client: a connection that the listener reports and that
    then cannot be established (or a listener that fails, which is reported the same way) changes nothing.  Everything that happens in
    between and afterwards is what would have happened without it - the same requests, responses, frames, refusals - and active_clients()
    is the same, except that later connections have the next number. *)
Theorem C93_reply_failed_accept :
  forall max min auth co D before during after res,
    (res = None \/ res = Some None) ->
    Forall rep_serving during ->
    let run := rp_run max min auth co D in
    let s := fst (run rp_init before) in
    (forall m, max = Some m -> rp_active s < m) ->
    let n := rep_admissions (snd (run rp_init before)) in
    let k := length (rp_conns s) in
    exists o1 o2,
      snd (run rp_init (before ++ during ++ after)) = snd (run rp_init before) ++ o1 ++ o2 /\
      snd (run rp_init (before ++ VAccept :: during ++ VConn k res :: after)) =
        snd (run rp_init before) ++ RAccepted n :: o1 ++ RGone n :: map (rep_later n) o2 /\
      rp_active (fst (run rp_init (before ++ VAccept :: during ++ VConn k res :: after))) =
        rp_active (fst (run rp_init (before ++ during ++ after))).
Proof. exact C93_reply_failed_accept_pf. Qed.
Print Assumptions C93_reply_failed_accept.

(** A client (address 7) is being served; the listener fails once while it sends a request; another client comes and gets number 2
    instead of 1. *)
Example C93_example_reply :
  forall D, let idle := mkPenv true true true (Some 0) NxPending in
  let m := rr_new 5 x00 [x61] in
  let run := rp_run (Some 2) 0 None None D rp_init in
  let before := [VAccept; VConn 0 (Some (Some 7))] in
  let during := [VPeer 7 (mkPenv true true true (Some 0) (NxMsg m)); VRecv; VRespond 0 [x62]; VPeer 7 idle; VPeer 7 idle] in
  let after := [VAccept; VConn 0 (Some (Some 8)); VAccept] in
  Forall rep_serving during /\ rp_active (fst (run before)) = 1 /\
  snd (run (before ++ VAccept :: during ++ VConn 0 None :: after)) =
    [RAccepted 0; ROpen 0 7] ++ RAccepted 1 :: snd (rp_run (Some 2) 0 None None D (fst (run before)) during) ++ RGone 1 :: [RAccepted 2; ROpen 2 8; RRefused] /\
  snd (run (before ++ during ++ after)) =
    [RAccepted 0; ROpen 0 7] ++ snd (rp_run (Some 2) 0 None None D (fst (run before)) during) ++ [RAccepted 1; ROpen 1 8; RRefused].
Proof. exact C93_example_reply_pf. Qed.

(** Publisher: the same.  (The steps of sessions started later name them by their new numbers.) *)
Theorem C93_publisher_failed_accept :
  forall max buf min auth co before during after res,
    (res = None \/ res = Some false) ->
    Forall pub_serving during ->
    let run := pb_run max buf min auth co in
    let s := fst (run pb_init before) in
    (forall m, max = Some m -> pb_active s < m) ->
    let n := pub_admissions (snd (run pb_init before)) in
    let k := length (pb_conns s) in
    exists o1 o2,
      snd (run pb_init (before ++ during ++ after)) = snd (run pb_init before) ++ o1 ++ o2 /\
      snd (run pb_init (before ++ WAccept :: during ++ WConn k res :: map (pub_step n) after)) =
        snd (run pb_init before) ++ QAccepted n :: o1 ++ QGone n :: map (pub_later n) o2 /\
      pb_active (fst (run pb_init (before ++ WAccept :: during ++ WConn k res :: map (pub_step n) after))) =
        pb_active (fst (run pb_init (before ++ during ++ after))).
Proof. exact C93_publisher_failed_accept_pf. Qed.
Print Assumptions C93_publisher_failed_accept.

(** Two subscribers with a limit of two, the listener failing in between. *)
Example C93_example_publisher :
  let run := pb_run (Some 2) 4 0 None None pb_init in
  let before := [WAccept; WConn 0 (Some true)] in
  let during := [WPublish [x61] [x62]; WSession 0 (mkSenv true true true true 0 PnPending)] in
  let after := [WAccept; WConn 0 (Some true); WSession 1 (mkSenv true true true true 0 PnEof); WAccept] in
  Forall pub_serving during /\ pub_admissions (snd (run before)) = 1 /\ pb_active (fst (run before)) = 1 /\
  snd (run (before ++ WAccept :: during ++ WConn 0 None :: map (pub_step 1) after)) =
    [QAccepted 0; QOpen 0; QAccepted 1; QPublished (mkPm [x61] (om_new [x62])); QTook 0 0; QGone 1; QAccepted 2; QOpen 2; QGone 2; QAccepted 3].
Proof. exact C93_example_publisher_pf. Qed.

