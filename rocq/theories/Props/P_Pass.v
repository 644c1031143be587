(** GENERATED by tools/gen_props.py from Proofs/T_Pass.v: statements only. *)

(** C96: the driver's passes over the publishers, as written. *)
From Coq Require Import List NArith Permutation.
From Verif Require Import Model.Base Model.Map Model.Stats Model.Framed Model.WirePubSub Model.WireAuth Model.Compression Model.Handshake Model.Utf8 Model.Backoff Model.JoinMap Model.PubDriver Model.SubDriver Model.SubPass
  Spec.ReqSpec Spec.SubSpec Spec.PassSpec.
Import ListNotations.
Open Scope N_scope.
From Verif Require Import Proofs.T_Pass.

(** The driver as it is written: it looks at all the publishers first and dials, resets and removes afterwards, in that order; and it tries to send a command to all of them before it resets those that
    are gone.  Whatever happened before: a poll ends in the same state, and as ready, as one that deals with each publisher at once (which the other theorems about the subscriber speak of), the same things
    are done and reported, each connection and each publisher sees them in the same order, and so does the application.  So what such a poll does is what some run of single steps does. *)
Theorem C96_passes_as_written :
  forall token ingress initial D evs s L ds s' o' r,
  sb_run token ingress initial D sb_init evs = (s, L) -> sp_poll token ingress initial D ds s = (s', o', r) ->
  exists o evs2, sb_poll token ingress initial D ds s = (s', o, r) /\ sb_run token ingress initial D s evs2 = (s', o) /\ same_story o o'.
Proof. exact C96_passes_as_written_pf. Qed.
Print Assumptions C96_passes_as_written.

(** Whole histories, with the driver as it is written, and with channels and timers that may say at any time that there is nothing though there is (which is what tokio's cooperative budget does): each
    ends in a state that some history of single steps ends in, and the two tell the same story. *)
Theorem C96_histories_as_written :
  forall token ingress initial D evs s L', sp_run token ingress initial D sb_init evs = (s, L') ->
  exists L evs2, sb_run token ingress initial D sb_init evs2 = (s, L) /\ same_story L L'.
Proof. exact C96_histories_as_written_pf. Qed.
Print Assumptions C96_histories_as_written.

(** Two publishers: the first cannot be reached and its wait is over, the second has sent a message.  The poll, as written, delivers the message before it dials; dealing with each publisher at once
    would dial first. *)
Example C96_example :
  let a1 := sx_addr in let a2 := AV4 2130706433 81 in
  let s := fst (sx_run [YApi (ApConnect true (Some a1)); YApi (ApConnect true (Some a2)); YCommand; YCommand; YJoin 0 JFail []; YJoin 0 (JConn true []) []; YSess 0 (sx_env (sx_msg x00 [x07])); YEntry a1 0]) in
  let d := mkYd 1000 [a1; a2] None in
  let q := sp_poll None 4 1000 sx_D [d; d] s in let q2 := sb_poll None 4 1000 sx_D [d; d] s in
  map (fun x => match x with UDeliver _ _ a _ _ => Some (inl a) | UConnect a => Some (inr a) | _ => None end) (snd (fst q)) = [Some (inl a2); Some (inr a1)] /\
  map (fun x => match x with UDeliver _ _ a _ _ => Some (inl a) | UConnect a => Some (inr a) | _ => None end) (snd (fst q2)) = [Some (inr a1); Some (inl a2)] /\
  fst (fst q) = fst (fst q2) /\ snd q = true.
Proof. exact C96_example_pf. Qed.

