(** C94: what the calls of a subscriber socket return. *)
From Coq Require Import List NArith.
From Verif Require Import Model.Base Model.Map Model.Stats Model.Framed Model.WirePubSub Model.WireAuth Model.Compression Model.Handshake Model.Utf8 Model.Backoff Model.JoinMap Model.PubDriver Model.SubDriver
  Spec.Utf8Spec Spec.ReqSpec Spec.SubSpec.
Import ListNotations.
Open Scope N_scope.
(*HEADEND*)
From Coq Require Import ZArith ZifyBool ZifyNat ZifyN.
From Verif Require Import Proofs.BaseP Proofs.MapP Proofs.SubDriverP Proofs.SubDriverP2 Proofs.SubDriverP3 Proofs.SubDriverP4.
Local Open Scope N_scope.

Section P.
Variables (token : option bytes) (ingress initial : N) (D : decompressors).

Lemma starts_msg t : starts_with MSG t = match t with x4d :: x53 :: x47 :: _ => true | _ => false end.
Proof.
  unfold starts_with, MSG. destruct t as [|a [|b [|c t]]].
  1-3: cbn [length firstn]; match goal with |- context [eq_dec ?x ?y] => destruct (eq_dec x y) as [E|E] end; [discriminate E|]; try destruct a; try reflexivity; try destruct b; reflexivity.
  cbn [length firstn]. match goal with |- context [eq_dec ?x ?y] => destruct (eq_dec x y) as [E|E] end.
  - injection E as -> -> ->. reflexivity.
  - destruct a; try reflexivity. destruct b; try reflexivity. destruct c; try reflexivity. exfalso. apply E. reflexivity.
Qed.

Lemma res_sub w try t : call_result w (ApSub try t) = (if starts_with MSG t then AReserved else if w <? 1024 then AOk else if try then AFull else AWait) /\
  call_result w (ApUnsub try t) = (if starts_with MSG t then AReserved else if w <? 1024 then AOk else if try then AFull else AWait).
Proof.
  rewrite starts_msg. unfold call_result. generalize (if w <? 1024 then AOk else if try then AFull else AWait). intros r.
  destruct t as [|a t]; [auto|]. destruct a; auto. destruct t as [|b t]; [auto|]. destruct b; auto. destruct t as [|c t]; [auto|]. destruct c; auto.
Qed.
Lemma call_eq f s : sb_dropped s = false ->
  sb_call f s = (match call_result (blen (sb_cmdq s)) f with AOk => sb_set_cmdq s (sb_cmdq s ++ meaning f) | _ => s end, [UApi f (call_result (blen (sb_cmdq s)) f)]).
Proof.
  intros H. unfold sb_call. rewrite H. change COMMAND_CAP with 1024.
  destruct f as [t x|t x|t [x|]|t [x|]]; cbn [api_command meaning api_try]; rewrite ?dialled_eq.
  - rewrite (proj1 (res_sub _ t x)). destruct (starts_with MSG x); [reflexivity|]. destruct (_ <? _); [reflexivity|]. destruct t; reflexivity.
  - rewrite (proj2 (res_sub _ t x)). destruct (starts_with MSG x); [reflexivity|]. destruct (_ <? _); [reflexivity|]. destruct t; reflexivity.
  - cbn [call_result]. destruct (_ <? _); [reflexivity|]. destruct t; reflexivity.
  - reflexivity.
  - cbn [call_result]. destruct (_ <? _); [reflexivity|]. destruct t; reflexivity.
  - reflexivity.
Qed.
End P.

(*@prop In every history, as long as the socket exists: a call returns ReservedTopic for a topic starting with "MSG", NoValidEndpoints when the address cannot be resolved or parsed,
    and otherwise succeeds iff fewer than 1024 commands of earlier calls are still to be processed; with 1024 the try_ form returns ChannelFull and the other form waits.
    A call that does not succeed (or has to wait) changes nothing; the command of a successful call is the last to be processed (C37: in order). *)
Lemma C94_results_of_calls_pf :
  forall token ingress initial D evs s log f s' o,
  sb_run token ingress initial D sb_init evs = (s, log) -> ~ In UDropped log -> sb_act token ingress initial D s (YApi f) = (s', o) ->
  let r := call_result (waiting_commands log) f in
  o = [UApi f r] /\ (r <> AOk -> s' = s) /\ (r = AOk -> waiting_commands (log ++ o) = waiting_commands log + 1) /\ waiting_commands log <= 1024.
Proof.
  intros token ingress initial D evs s L f s' o R Nd A. pose proof (run_GI token ingress initial D _ _ _ R) as G.
  assert (Hd : sb_dropped s = false). { destruct (sb_dropped s) eqn:E; [|reflexivity]. exfalso. apply Nd, (gi_drop _ _ _ G), E. }
  destruct (gi_cmds _ _ _ G) as (tail & E & [[-> _]|[X _]]); [|congruence]. rewrite app_nil_r in E.
  assert (W : waiting_commands L = blen (sb_cmdq s)) by (unfold waiting_commands; rewrite <- E, blen_app; lia).
  pose proof (gi_cap _ _ _ G) as Wc. change COMMAND_CAP with 1024 in Wc.
  cbn [sb_act] in A. rewrite call_eq in A by exact Hd. cbv zeta. rewrite W. injection A as <- <-. split; [reflexivity|]. split; [intros H; destruct (call_result _ f); congruence|]. split; [|exact Wc].
  intros H. rewrite H. unfold waiting_commands. rewrite calls_app, commands_app, flat_map_app, !blen_app, <- E, blen_app. cbn [calls commands flat_map app].
  assert (M : blen (meaning f) = 1).
  { destruct f as [t x|t x|t [x|]|t [x|]]; try reflexivity; cbn [call_result] in H; discriminate. }
  rewrite app_nil_r, M. change (blen []) with 0. lia.
Qed.

(*@example The socket with no running driver takes 1024 commands; the next try_ call is refused, the next plain call waits, a reserved topic and a bad address are reported; one command processed makes room for one. *)
Lemma C94_example_pf :
  let q := repeat (YApi (ApSub true [x61])) 1024 in
  let more := [YApi (ApUnsub true [x62]); YApi (ApConnect false (Some (AV6 0 80 0 0))); YApi (ApSub true [x4d; x53; x47]); YApi (ApDisconnect true None); YCommand; YApi (ApConnect true (Some (AV6 0 80 0 0))); YApi (ApDisconnect true (Some (AV4 1 1)))] in
  let r := sx_run q in
  ~ In UDropped (snd r) /\ waiting_commands (snd r) = 1024 /\
  snd (sb_run None 4 1000 sx_D (fst r) more) =
    [UApi (ApUnsub true [x62]) AFull; UApi (ApConnect false (Some (AV6 0 80 0 0))) AWait; UApi (ApSub true [x4d; x53; x47]) AReserved; UApi (ApDisconnect true None) ANoEndpoint;
     UCmd (CSub [x61]); UApi (ApConnect true (Some (AV6 0 80 0 0))) AOk; UApi (ApDisconnect true (Some (AV4 1 1))) AFull] /\
  nth 1023 (sb_cmdq (fst (sb_run None 4 1000 sx_D (fst r) more))) CShutdown = CConnect (AV4 2130706433 80).
Proof.
  split; [|vm_compute; repeat split]. assert (H : forallb (fun x => match x with UDropped => false | _ => true end) (snd (sx_run (repeat (YApi (ApSub true [x61])) 1024))) = true) by (vm_compute; reflexivity).
  intros Hi. rewrite forallb_forall in H. specialize (H _ Hi). clear Hi. cbn in H. discriminate H.
Qed.
