(** GENERATED by tools/gen_props.py from Proofs/T_Quic.v: statements only. *)

(** C92: a QUIC listener hands on every connection, once and in order. *)
From Coq Require Import List NArith.
From Verif Require Import Model.Base Model.QuicAccept Spec.QuicSpec.
Import ListNotations.
Open Scope N_scope.
From Verif Require Import Proofs.T_Quic.

(** poll_accept hands on connections only in the order in which they arrived, each one once, and never panics, in every history of a
    bound QUIC transport: arrivals, turns of the accepting task, polls, failures of the endpoint and the drop in any order. *)
Theorem C92_in_order :
  forall evs, let o := snd (qa_run qa_bound evs) in
    (exists rest, arrived o = handed_on o ++ rest) /\ ~ In APanic o.
Proof. exact C92_in_order_pf. Qed.
Print Assumptions C92_in_order.

(** As long as the transport is not dropped and its endpoint does not fail, every connection that has arrived is handed on: whatever
    happened before, a fair schedule of the accepting task and of poll_accept hands on the missing ones; three turns for each of them (and one
    to start the task) are enough. *)
Theorem C92_nothing_lost :
  forall evs more n,
    ~ In EDrop evs -> ~ In EFail evs -> Forall running more -> turns n more ->
    let before := snd (qa_run qa_bound evs) in
    let all := snd (qa_run qa_bound (evs ++ more)) in
    (3 * (length (arrived before) - length (handed_on before)) + 1 <= n)%nat ->
    handed_on all = arrived before /\ arrived all = arrived before.
Proof. exact C92_nothing_lost_pf. Qed.
Print Assumptions C92_nothing_lost.

(** Dropping the transport does not give its address up: once poll_accept has been called, the accepting task keeps a handle, and unless
    somebody connects (or the endpoint fails) it keeps it for ever, in every continuation. *)
Theorem C92_drop_keeps_address_refuted :
  forall more, (forall c, ~ In (EArrive c) more) -> ~ In EFail more ->
    In ADropped (snd (qa_run qa_bound ([EPoll; EDrop] ++ more))) /\
    ~ In AReleased (snd (qa_run qa_bound ([EPoll; EDrop] ++ more))) /\
    forall c, snd (qa_act (fst (qa_run qa_bound ([EPoll; EDrop] ++ more))) (EArrive c)) = [AArrived c].
Proof. exact C92_drop_keeps_address_refuted_pf. Qed.
Print Assumptions C92_drop_keeps_address_refuted.

(** What does hold after a drop: the first client that tries to connect afterwards makes the accepting task notice (its second turn at
    the latest).  The address is then given up, and the connection of this client is lost unless it was refused in the first place. *)
Theorem C92_released_by_next_client_partial :
  forall evs mid c more,
    ~ In EFail (evs ++ EDrop :: mid ++ EArrive c :: more) -> (2 <= steps more)%nat ->
    let o := snd (qa_run qa_bound (evs ++ EDrop :: mid ++ EArrive c :: more)) in
    In AReleased o /\ (In (ALost c) o \/ In (AUnreachable c) o).
Proof. exact C92_released_by_next_client_partial_pf. Qed.
Print Assumptions C92_released_by_next_client_partial.

(** Once the endpoint has failed, at most 33 further connections are handed on (those already taken from it); no client can connect any
    more. *)
Theorem C92_after_failure :
  forall evs more,
    let before := snd (qa_run qa_bound evs) in
    let all := snd (qa_run qa_bound (evs ++ EFail :: more)) in
    arrived all = arrived before /\ (length (handed_on all) <= length (handed_on before) + 33)%nat.
Proof. exact C92_after_failure_pf. Qed.
Print Assumptions C92_after_failure.

(** Three clients connect while nobody polls; a fair schedule hands on all three, in order; the fourth client, connecting after the
    drop, is let in, lost, and frees the address. *)
Example C92_example :
  let o := snd (qa_run qa_bound [EPoll; EArrive 7; EArrive 8; EStep; EArrive 9; EStep; EStep; EStep; EPoll; EPoll; EStep; EPoll; EStep; EPoll; EPoll;
                                 EDrop; EStep; EArrive 5; EStep; EStep; EArrive 6]) in
  o = [APending; AArrived 7; AArrived 8; AArrived 9; AGave 7; AGave 8; APending; AGave 9; APending;
       ADropped; AArrived 5; ALost 5; AReleased; AUnreachable 6].
Proof. exact C92_example_pf. Qed.

(** The hypotheses of the theorems are met. *)
Example C92_example_fair :
  let more := [EPoll; EStep] ++ [EStep; EPoll] ++ [EStep; EPoll] ++ [EPoll; EStep] ++ [] in
  Forall running more /\ turns 4 more /\
  snd (qa_run qa_bound ([EArrive 7] ++ more)) = [AArrived 7; APending; AGave 7; APending; APending].
Proof. exact C92_example_fair_pf. Qed.

