(** GENERATED by tools/gen_props.py from Proofs/T_Redial.v: statements only. *)

(** C95: a subscriber redials on schedule. *)
From Coq Require Import List NArith.
From Verif Require Import Model.Base Model.Map Model.Stats Model.Framed Model.WirePubSub Model.WireAuth Model.Compression Model.Handshake Model.Utf8 Model.Backoff Model.JoinMap Model.PubDriver Model.SubDriver
  Spec.Utf8Spec Spec.BackoffSpec Spec.ReqSpec Spec.SubSpec Spec.RedialSpec.
Import ListNotations.
Open Scope N_scope.
From Verif Require Import Proofs.T_Redial.

(** The publisher is reset (after connect(), or because its connection has been given up), and nobody interferes afterwards.  Then, whatever else happens to the socket, each time the driver looks at
    the publisher, it does what the schedule says: nothing before the wait is over (the first wait is the initial back-off, each further one twice as long, and lasts from the last dial); then it dials,
    15 times; when the sixteenth wait is over, it gives up for good.  (It does not dial, though the schedule says so, while an attempt for this publisher is under way, or after one has panicked.) *)
Theorem C95_redial_schedule :
  forall token ingress initial D a evs1 ev evs2 s0 s s1 s2 L0 o0 L2 t o,
  initial * 2 ^ 16 <= longest ->
  sb_run token ingress initial D sb_init evs1 = (s0, L0) -> sb_act token ingress initial D s0 ev = (s, o0) -> In (UReset a) o0 ->
  sb_run token ingress initial D s evs2 = (s1, L2) -> undisturbed a L2 ->
  sb_act token ingress initial D s1 (YEntry a t) = (s2, o) ->
  let log := L0 ++ o0 ++ L2 in
  match last (redials initial 15 None (looks a evs2 ++ [t])) RdNothing with
  | RdNothing => o = []
  | RdGiveUp => o = [UGaveUp a]
  | RdDial => o = [UConnect a] \/ o = [] /\ ((attempts_ended a log < attempts a log)%nat \/ In (UTaskPanic a) log)
  end.
Proof. exact C95_redial_schedule_pf. Qed.
Print Assumptions C95_redial_schedule.

(** Doubling the waits never overflows (which would be a panic of the driver), whatever happens, if sixteen doublings of the initial back-off fit a Duration. *)
Theorem C95_waits_never_overflow :
  forall token ingress initial D evs s L a b now, initial * 2 ^ 16 <= longest -> sb_run token ingress initial D sb_init evs = (s, L) ->
  mget a (sb_pubs s) = Some (PInactive b) -> snd (bo_poll now b) <> BPanic.
Proof. exact C95_waits_never_overflow_pf. Qed.
Print Assumptions C95_waits_never_overflow.

(** connect() to a publisher that cannot be reached: with looks every 500 ns and an initial back-off of 1000 ns the dials come after 1000, 3000, 7000 ns; the last of a schedule with two dials is the giving up. *)
Example C95_example :
  let a := sx_addr in let times := map (fun n => N.of_nat n * 500) (seq 0 17) in
  let s0 := fst (sx_run [YApi (ApConnect true (Some a))]) in let r := sb_act None 4 1000 sx_D s0 YCommand in
  let evs2 := YJoin 0 JFail [] :: map (YEntry a) (removelast times) in let q := sb_run None 4 1000 sx_D (fst r) evs2 in
  1000 * 2 ^ 16 <= longest /\ In (UReset a) (snd r) /\ snd q = [UConnectFailed a; UConnect a] /\ undisturbed a (snd q) /\
  map (fun k => last (redials 1000 15 None (firstn k times)) RdNothing) [2; 3; 4; 6; 7; 8; 14; 15; 16]%nat = [RdNothing; RdDial; RdNothing; RdNothing; RdDial; RdNothing; RdNothing; RdDial; RdNothing] /\
  redials 1000 2 None [0; 1000; 2000; 3000; 6999; 7000; 9000] = [RdNothing; RdDial; RdNothing; RdDial; RdNothing; RdGiveUp; RdNothing].
Proof. exact C95_example_pf. Qed.

