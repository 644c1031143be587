(** Options, the QUIC configuration and the conditions of a simulation: C87-C89. *)
From Coq Require Import List NArith String QArith Qminmax.
From Verif Require Import Model.Base Model.ReqDriver Model.Options Model.QuicConfig Model.SimCmd Spec.OptSpec Spec.SimSpec.
Import ListNotations.
Open Scope N_scope.
(*HEADEND*)
From Coq Require Import ZArith Ascii DecimalString DecimalN Lia Lqa ZifyBool ZifyN.
From Verif Require Import Proofs.BaseP.

(** ** C87 *)
Lemma last_set_app {C V} (pick : C -> option V) l c :
  last_set pick (l ++ [c]) = match pick c with Some v => Some v | None => last_set pick l end.
Proof. induction l as [|a l IH]; cbn; [destruct (pick c); reflexivity|]. rewrite IH. destruct (pick c); reflexivity. Qed.
Lemma last_or_app {C V} (pick : C -> option V) d l c :
  last_or pick d (l ++ [c]) = match pick c with Some v => v | None => last_or pick d l end.
Proof. unfold last_or. rewrite last_set_app. destruct (pick c); reflexivity. Qed.

(*@prop C87 (request socket): after any chain of setter calls on the default options, every option has the value it was last given, and if it was never set its documented default, whatever else was set. *)
Lemma C87_request_options_pf :
  forall calls, req_build calls =
  mkReqO (last_or (fun c => match c with QAuth x => Some (Some x) | _ => None end) None calls)
         (last_or (fun c => match c with QTimeout x => Some x | _ => None end) (5 * s) calls)
         true
         (last_or (fun c => match c with QBackoff x => Some x | _ => None end) (200 * ms) calls)
         (last_or (fun c => match c with QFlush x => Some (Some x) | _ => None end) None calls)
         (last_or (fun c => match c with QBoundary x => Some x | _ => None end) (8 * KiB) calls)
         (last_or (fun c => match c with QRetry x => Some (Some x) | _ => None end) None calls)
         (last_or (fun c => match c with QMinCompress x => Some x | _ => None end) (8 * KiB) calls).
Proof.
  intros calls. unfold req_build. induction calls as [|c l IH] using rev_ind; [reflexivity|].
  rewrite fold_left_app, !last_or_app. cbn [fold_left]. rewrite IH. destruct c; reflexivity.
Qed.

(*@prop C87 (reply socket). *)
Lemma C87_reply_options_pf :
  forall calls, rep_build calls =
  mkRepO (last_or (fun c => match c with PMax x => Some (Some x) | _ => None end) None calls)
         (last_or (fun c => match c with PMinCompress x => Some x | _ => None end) (8 * KiB) calls).
Proof.
  intros calls. unfold rep_build. induction calls as [|c l IH] using rev_ind; [reflexivity|].
  rewrite fold_left_app, !last_or_app. cbn [fold_left]. rewrite IH. destruct c; reflexivity.
Qed.

(*@prop C87 (publisher socket). *)
Lemma C87_publisher_options_pf :
  forall calls, pub_build calls =
  mkPubO (last_or (fun c => match c with BMax x => Some (Some x) | _ => None end) None calls)
         (last_or (fun c => match c with BBuffer x => Some x | _ => None end) 1024 calls)
         (last_or (fun c => match c with BFlush x => Some (Some x) | _ => None end) (Some (50 * us)) calls)
         (last_or (fun c => match c with BBoundary x => Some x | _ => None end) (8 * KiB) calls)
         (last_or (fun c => match c with BMinCompress x => Some x | _ => None end) (8 * KiB) calls).
Proof.
  intros calls. unfold pub_build. induction calls as [|c l IH] using rev_ind; [reflexivity|].
  rewrite fold_left_app, !last_or_app. cbn [fold_left]. rewrite IH. destruct c; reflexivity.
Qed.

(*@prop C87 (subscriber socket). *)
Lemma C87_subscriber_options_pf :
  forall calls, sub_build calls =
  mkSubO (last_or (fun c => match c with UAuth x => Some (Some x) | _ => None end) None calls)
         (last_or (fun c => match c with UIngress x => Some x | _ => None end) 1024 calls)
         (last_or (fun c => match c with URead x => Some x | _ => None end) (8 * KiB) calls)
         (last_or (fun c => match c with UBackoff x => Some x | _ => None end) (100 * ms) calls).
Proof.
  intros calls. unfold sub_build. induction calls as [|c l IH] using rev_ind; [reflexivity|].
  rewrite fold_left_app, !last_or_app. cbn [fold_left]. rewrite IH. destruct c; reflexivity.
Qed.

(*@prop C87 (QUIC configuration): after any chain of builder calls every parameter has the value it was last given, else the documented default (MTU 1460, 50 MiB per second, 100 ms, idle timeout 300 s, keep-alive 15 s). *)
Lemma C87_quic_options_pf :
  forall calls, fold_left qb_setter calls qb_new =
  mkQb (last_or (fun c => match c with QMtu x => Some x | _ => None end) 1460 calls)
       (last_or (fun c => match c with QBandwidth x => Some x | _ => None end) (50 * KiB * KiB) calls)
       (last_or (fun c => match c with QRtt x => Some x | _ => None end) 100 calls)
       (last_or (fun c => match c with QIdle x => Some x | _ => None end) (300 * s) calls)
       (last_or (fun c => match c with QKeepAlive x => Some x | _ => None end) (15 * s) calls).
Proof.
  intros calls. induction calls as [|c l IH] using rev_ind; [reflexivity|].
  rewrite fold_left_app, !last_or_app. cbn [fold_left]. rewrite IH. destruct c; reflexivity.
Qed.

(*@prop C87 is violated: three documented choices cannot be made.  No chain of calls switches blocking connect off (so "enables blocking initial connections" changes nothing), none gives a publisher without a
    flush interval ("if this is None, the session will be flushed on every publish"), and of the request options that can be set, backoff_duration and retry_attempts do not change any history. *)
Lemma C87_unreachable_choices_refuted_pf :
  (forall calls, qo_blocking_connect (req_build calls) = true /\ req_build (calls ++ [QBlocking]) = req_build calls)
  /\ (forall calls, bo_flush_interval (pub_build calls) <> None)
  /\ (forall calls x co D st evs, rd_run (req_ropts (req_build (calls ++ [QBackoff x]))) co D st evs = rd_run (req_ropts (req_build calls)) co D st evs
      /\ rd_run (req_ropts (req_build (calls ++ [QRetry x]))) co D st evs = rd_run (req_ropts (req_build calls)) co D st evs).
Proof.
  assert (K : forall calls, qo_blocking_connect (req_build calls) = true) by (intros; rewrite C87_request_options_pf; reflexivity).
  split; [|split].
  - intros calls. split; [apply K|]. specialize (K calls). unfold req_build in *. rewrite fold_left_app. cbn [fold_left].
    destruct (fold_left req_setter calls req_default) as [a t b d f p r m]. cbn in *. subst b. reflexivity.
  - intros calls. rewrite C87_publisher_options_pf. cbn [bo_flush_interval]. induction calls as [|c l IH] using rev_ind; [discriminate|].
    rewrite last_or_app. destruct c; try exact IH. discriminate.
  - intros calls x co D st evs. unfold req_build. rewrite !fold_left_app. cbn [fold_left].
    destruct (fold_left req_setter calls req_default) as [a t b d f p r m]. cbn [req_setter].
    assert (W : forall b1 b2 d1 d2 r1 r2, rd_run (mkROpts t b1 d1 f r1 m) co D st evs = rd_run (mkROpts t b2 d2 f r2 m) co D st evs).
    { intros. revert st. induction evs as [|e evs IH]; intros st; [reflexivity|]. cbn [rd_run].
      assert (Q : rd_step (mkROpts t b1 d1 f r1 m) co D st e = rd_step (mkROpts t b2 d2 f r2 m) co D st e) by reflexivity.
      rewrite Q. destruct (rd_step _ co D st e) as [s1 o1]. rewrite IH. reflexivity. }
    split; apply W.
Qed.

(*@example *)
Lemma C87_example_pf :
  req_build [QTimeout 7; QFlush 3; QTimeout 9; QBlocking] = mkReqO None 9 true 200000000 (Some 3) 8192 None 8192
  /\ pub_build [BFlush 1; BMax 4; BFlush 2] = mkPubO (Some 4) 1024 (Some 2) 8192 8192.
Proof. split; reflexivity. Qed.

(** ** C88 *)
Lemma mul32_ok checked a b : a * b < 2 ^ 32 -> mul32 checked a b = Some (a * b).
Proof. intros H. unfold mul32. apply N.ltb_lt in H. rewrite H. reflexivity. Qed.

(*@prop C88 (what holds): with at least 1000 bytes per second, a window that fits 32 bits and a valid idle timeout, build() succeeds (with or without overflow checks) and both windows let [bandwidth] bytes per second through at the expected
    round-trip time (they hold at least the bandwidth-delay product, at most 8 times as much); the other parameters are the configured ones. *)
Lemma C88_window_covers_partial_pf :
  forall checked b, 1000 <= qb_bandwidth b -> 8 * (qb_bandwidth b / 1000 * qb_rtt b) < 2 ^ 32 -> qb_idle b / ms < 2 ^ 62 ->
  exists t, qb_build checked b = Some t /\ qt_send_window t = qt_recv_window t
    /\ bdp1000 (qb_bandwidth b) (qb_rtt b) <= 1000 * qt_recv_window t <= 8 * bdp1000 (qb_bandwidth b) (qb_rtt b)
    /\ qt_keepalive t = qb_keepalive b /\ qt_idle t = qb_idle b / ms /\ qt_initial_rtt t = qb_rtt b
    /\ qt_min_mtu t <= qt_mtu t /\ (1200 <= qb_mtu b -> qt_mtu t = qb_mtu b).
Proof.
  intros checked b B W I. unfold qb_build, bdp1000, ms in *. rewrite mul32_ok by lia. destruct (N.leb_spec (2 ^ 62) (qb_idle b / 1000000)) as [X|_]; [lia|].
  rewrite mul32_ok by lia. eexists. split; [reflexivity|]. cbn [qt_send_window qt_recv_window qt_keepalive qt_idle qt_initial_rtt qt_mtu qt_min_mtu].
  split; [reflexivity|]. split.
  - assert (E : qb_bandwidth b = 1000 * (qb_bandwidth b / 1000) + qb_bandwidth b mod 1000) by (apply N.div_mod; lia).
    assert (M : qb_bandwidth b mod 1000 < 1000) by (apply N.mod_lt; lia).
    set (q := qb_bandwidth b / 1000) in *. assert (1 <= q) by lia. generalize dependent (qb_bandwidth b mod 1000). intros m E M. rewrite E. clear W. split; nia.
  - repeat split; try lia; try reflexivity.
Qed.

(*@prop C88 is violated: below 1000 bytes per second the windows are 0, so no byte can ever be sent; a product that does not fit 32 bits panics with overflow checks, and without them the window is silently cut to 32 bits, for instance 704 bytes for 1 GB/s and 500 ms; an
    idle timeout of 2^62 ms or more panics; a keep-alive interval longer than the idle timeout is accepted. *)
Lemma C88_bad_settings_refuted_pf :
  (forall checked b, qb_bandwidth b < 1000 -> qb_idle b / ms < 2 ^ 62 -> exists t, qb_build checked b = Some t /\ qt_recv_window t = 0 /\ qt_send_window t = 0)
  /\ (forall b, 2 ^ 32 <= 8 * (qb_bandwidth b / 1000 * qb_rtt b) -> qb_build true b = None)
  /\ (forall b t, 2 ^ 32 <= 8 * (qb_bandwidth b / 1000 * qb_rtt b) -> qb_build false b = Some t -> qt_recv_window t = 8 * (qb_bandwidth b / 1000 * qb_rtt b) mod 2 ^ 32)
  /\ (exists b t, qb_bandwidth b < 2 ^ 32 /\ qb_rtt b = 500 /\ qb_build false b = Some t /\ 1000 * qt_recv_window t < bdp1000 (qb_bandwidth b) (qb_rtt b))
  /\ (forall checked b, 2 ^ 62 <= qb_idle b / ms -> qb_build checked b = None)
  /\ (exists t, qb_build true (fold_left qb_setter [QIdle (10 * s)] qb_new) = Some t /\ 1000000 * qt_idle t < qt_keepalive t).
Proof.
  unfold ms. split; [|split; [|split; [|split; [|split]]]].
  - intros checked b B I. unfold qb_build. rewrite (N.div_small (qb_bandwidth b)) by lia. rewrite mul32_ok by lia.
    destruct (N.leb_spec (2 ^ 62) (qb_idle b / 1000000)) as [X|_]; [lia|]. rewrite mul32_ok by lia. eexists. split; [reflexivity|]. cbn. split; reflexivity.
  - intros b W. unfold qb_build, mul32. set (q := qb_bandwidth b / 1000) in *. destruct (N.ltb_spec (q * qb_rtt b) (2 ^ 32)) as [H|H]; [|reflexivity].
    destruct (2 ^ 62 <=? qb_idle b / 1000000); [reflexivity|]. destruct (N.ltb_spec (8 * (q * qb_rtt b)) (2 ^ 32)) as [G|G]; [lia|reflexivity].
  - intros b t W. unfold qb_build, mul32. set (q := qb_bandwidth b / 1000) in *. set (r := q * qb_rtt b) in *.
    destruct (N.ltb_spec r (2 ^ 32)) as [H|H].
    + destruct (2 ^ 62 <=? qb_idle b / 1000000); [discriminate|]. destruct (N.ltb_spec (8 * r) (2 ^ 32)) as [G|G]; [lia|]. intros [= <-]. reflexivity.
    + destruct (2 ^ 62 <=? qb_idle b / 1000000); [discriminate|].
      assert (K : 8 * r mod 2 ^ 32 = 8 * (r mod 2 ^ 32) mod 2 ^ 32) by (rewrite (N.mul_mod 8 r), (N.mul_mod 8 (r mod 2 ^ 32)), N.mod_mod by lia; reflexivity).
      destruct (N.ltb_spec (8 * (r mod 2 ^ 32)) (2 ^ 32)) as [G|G]; intros [= <-]; cbn [qt_recv_window]; rewrite K; [|reflexivity].
      symmetry. apply N.mod_small. exact G.
  - exists (mkQb 1460 1073742000 500 1000000000 1). eexists. split; [reflexivity|]. split; [reflexivity|]. split; [reflexivity|]. vm_compute. reflexivity.
  - intros checked b I. unfold qb_build. destruct (mul32 checked _ (qb_rtt b)); [|reflexivity].
    destruct (N.leb_spec (2 ^ 62) (qb_idle b / 1000000)) as [X|X]; [reflexivity|lia].
  - eexists. split; [vm_compute; reflexivity|]. vm_compute. reflexivity.
Qed.

(*@prop C88 (the configurations one gets without choosing): both the default configuration and the builder's defaults have windows for their bandwidth (1000 MiB/s and 50 MiB/s, at 100 ms), and keep-alives within the idle timeout. *)
Lemma C88_defaults_partial_pf :
  bdp1000 (1000 * MiB) 100 <= 1000 * qt_recv_window quic_default /\ qt_send_window quic_default = qt_recv_window quic_default
  /\ qt_recv_window quic_default < 2 ^ 32 /\ qt_keepalive quic_default < ms * qt_idle quic_default
  /\ forall checked, exists t, qb_build checked qb_new = Some t /\ bdp1000 (50 * MiB) 100 <= 1000 * qt_recv_window t /\ qt_keepalive t < ms * qt_idle t.
Proof.
  repeat split; try (vm_compute; discriminate); try (vm_compute; reflexivity).
  intros [|]; eexists; (split; [vm_compute; reflexivity|]); split; try (vm_compute; discriminate); vm_compute; reflexivity.
Qed.

(*@example *)
Lemma C88_example_pf :
  let b := fold_left qb_setter [QBandwidth 1000000; QRtt 50; QMtu 1300] qb_new in
  1000 <= qb_bandwidth b /\ 8 * (qb_bandwidth b / 1000 * qb_rtt b) < 2 ^ 32 /\ qb_idle b / ms < 2 ^ 62
  /\ qb_build true b = Some (mkQt (15 * s) 300000 1300 1300 400000 400000 50).
Proof. repeat split; vm_compute; congruence. Qed.

(** ** C89 *)
Lemma number_show n : number (show n) = Some n.
Proof.
  unfold number, show. rewrite NilEmpty.usu. f_equal. apply DecimalN.Unsigned.of_to.
Qed.
Lemma digits_uint u r : split_digits (NilEmpty.string_of_uint u ++ r)%string = (let (d, t) := split_digits r in (NilEmpty.string_of_uint u ++ d, t))%string.
Proof. induction u; cbn [NilEmpty.string_of_uint append split_digits]; try (change (is_digit _) with true; cbv iota; rewrite IHu; destruct (split_digits r); reflexivity).
  destruct (split_digits r); reflexivity. Qed.
Lemma app_nil_string s : (s ++ "")%string = s.
Proof. induction s; cbn; congruence. Qed.
Lemma digits_show n c r : is_digit c = false -> split_digits (show n ++ String c r)%string = (show n, String c r).
Proof. intros H. unfold show. rewrite digits_uint. cbn [split_digits]. rewrite H. cbv iota beta. rewrite app_nil_string. reflexivity. Qed.
Lemma bandwidth_show n : bandwidth (show n ++ "Kbit/s") = Some (n * 1000).
Proof. unfold bandwidth. rewrite digits_show by reflexivity. rewrite number_show. reflexivity. Qed.

(*@prop C89 (what holds): the command that configures a simulation's pipe makes dnctl configure the pipe of that simulation's id with the configured bandwidth (Kbit/s), the configured latency in whole milliseconds (less than 1 ms is lost), and,
    where nothing is configured, no limit, no delay, no loss; its destroy command deletes the same pipe; and the rule sends the traffic to the endpoint through that pipe. *)
Lemma C89_conditions_partial_pf :
  forall showq readq id endpoint c, (forall q, exists r, readq (showq q) = Some r /\ (r == q)%Q) ->
  let f := sim_filter id endpoint c in
  (exists e, dnctl_config readq (build_cmd showq (pf_pipe f)) = Some (id, e)
    /\ ef_bw e = option_map (fun k => k * 1000) (co_bw c)
    /\ (match co_latency c with Some ns => ef_delay e * ms <= ns < ef_delay e * ms + ms | None => ef_delay e = 0 end)
    /\ (match co_plr c with Some q => (ef_loss e == Qmax 0 (Qmin 1 q))%Q | None => ef_loss e = 0%Q end))
  /\ dnctl_delete (destroy_cmd (pf_pipe f)) = Some id
  /\ dummynet_rule f = Some ("dummynet in from any to " ++ endpoint ++ " pipe " ++ show id)%string.
Proof.
  intros showq readq id endpoint [lat bw plr pr] R f. 
  assert (F : pf_pipe f = mkPipe id bw (option_map (fun n => n / 1000000) lat) plr /\ pf_endpoint f = Some endpoint).
  { unfold f, sim_filter. cbn [co_latency co_bw co_plr co_protocols]. destruct lat, bw, plr, pr; split; reflexivity. }
  destruct F as [F1 F2]. split; [|split].
  - rewrite F1. cbn [co_latency co_bw co_plr]. unfold build_cmd. cbn [pi_id pi_bw pi_delay pi_plr].
    unfold dnctl_config. cbn [List.app]. change ((("sudo" =? "sudo") && ("dnctl" =? "dnctl") && ("pipe" =? "pipe") && ("config" =? "config"))%string%bool) with true.
    cbv iota. rewrite number_show.
    assert (L : forall l, match l with Some ns => (ns / 1000000) * ms <= ns < (ns / 1000000) * ms + ms | None => True end).
    { intros [ns|]; [|exact I]. unfold ms. pose proof (N.div_mod ns 1000000 ltac:(lia)). pose proof (N.mod_lt ns 1000000 ltac:(lia)). lia. }
    specialize (L lat).
    assert (S3 : forall b d, exists e, settings readq (match plr with Some q => ["plr"%string; showq q] | None => [] end) (mkEff b d 0) = Some e /\ ef_bw e = b /\ ef_delay e = d
       /\ match plr with Some q => (ef_loss e == Qmax 0 (Qmin 1 q))%Q | None => ef_loss e = 0%Q end).
    { intros b d. destruct plr as [q|]; [|eexists; split; [reflexivity|]; repeat split].
      destruct (R q) as (r & E & Q). cbn [settings]. change ("plr" =? "bw")%string with false. change ("plr" =? "delay")%string with false. change ("plr" =? "plr")%string with true.
      cbv iota. rewrite E. eexists. split; [reflexivity|]. cbn [ef_bw ef_delay ef_loss]. repeat split. rewrite Q. reflexivity. }
    destruct bw as [n|], lat as [ns|]; cbn [option_map List.app settings];
      change ("bw" =? "bw")%string with true; change ("delay" =? "bw")%string with false; change ("delay" =? "delay")%string with true; cbv iota;
      rewrite ?bandwidth_show, ?number_show; cbn [ef_bw ef_delay ef_loss];
      match goal with |- context [settings readq _ (mkEff ?b ?d 0)] => destruct (S3 b d) as (e & E & B & Dl & P) end; rewrite E;
      exists e; rewrite B, Dl; auto.
  - rewrite F1. unfold dnctl_delete, destroy_cmd. cbn [pi_id].
    change ((("sudo" =? "sudo") && ("dnctl" =? "dnctl") && ("pipe" =? "pipe") && ("delete" =? "delete"))%string%bool) with true. cbv iota. apply number_show.
  - unfold dummynet_rule. rewrite F2, F1. reflexivity.
Qed.

(*@prop C89 is violated: the loss rate is documented as a percentage but handed on as a fraction, so no loss rate above 0 percent is simulated correctly, and every one from 1 percent on loses all packets. *)
Lemma C89_loss_rate_refuted_pf :
  forall showq readq id endpoint lat bw pr q, (forall q, exists r, readq (showq q) = Some r /\ (r == q)%Q) -> (0 < q)%Q -> (q <= 99)%Q ->
  exists e, dnctl_config readq (build_cmd showq (pf_pipe (sim_filter id endpoint (mkCo lat bw (Some q) pr)))) = Some (id, e)
    /\ ~ (ef_loss e == q / 100)%Q /\ ((1 <= q)%Q -> (ef_loss e == 1)%Q).
Proof.
  intros showq readq id endpoint lat bw pr q R P H.
  destruct (C89_conditions_partial_pf showq readq id endpoint (mkCo lat bw (Some q) pr) R) as ((e & E & _ & _ & L) & _). exists e. split; [exact E|].
  cbn [co_plr] in L. split.
  - intros X. rewrite X in L. destruct (Q.min_spec 1 q) as [[A B]|[A B]]; rewrite B in L; destruct (Q.max_spec 0 (Qmin 1 q)) as [[C Dd]|[C Dd]].
    all: try (destruct (Q.max_spec 0 1) as [[C1 D1]|[C1 D1]]; rewrite D1 in L); try (destruct (Q.max_spec 0 q) as [[C2 D2]|[C2 D2]]; rewrite D2 in L);
      unfold Qdiv in L; change (/ 100)%Q with (1 # 100)%Q in L; lra.
  - intros O. rewrite L. destruct (Q.min_spec 1 q) as [[A B]|[A B]]; rewrite B; [reflexivity|]. assert (Q1 : (q == 1)%Q) by lra. rewrite Q1. reflexivity.
Qed.

(*@prop C89 is violated: the configured protocols make no difference: with any two lists of protocols, the pipe, the rule and all commands are the same. *)
Lemma C89_protocols_ignored_refuted_pf :
  forall showq id endpoint lat bw plr pr1 pr2,
  let f1 := sim_filter id endpoint (mkCo lat bw plr pr1) in let f2 := sim_filter id endpoint (mkCo lat bw plr pr2) in
  dummynet_rule f1 = dummynet_rule f2 /\ build_cmd showq (pf_pipe f1) = build_cmd showq (pf_pipe f2) /\ destroy_cmd (pf_pipe f1) = destroy_cmd (pf_pipe f2)
  /\ pf_anchor f1 = pf_anchor f2.
Proof. intros showq id endpoint lat bw plr pr1 pr2. destruct lat, bw, plr, pr1, pr2; repeat split. Qed.

(*@example *)
Lemma C89_example_pf :
  let showq := fun q => show (Z.to_N (Qnum q)) in
  let p := pf_pipe (sim_filter 12 "127.0.0.3" (mkCo (Some 2500000) (Some 640) (Some 5%Q) [UDP])) in
  build_cmd showq p = ["sudo"; "dnctl"; "pipe"; "12"; "config"; "bw"; "640Kbit/s"; "delay"; "2"; "plr"; "5"]%string
  /\ destroy_cmd p = ["sudo"; "dnctl"; "pipe"; "delete"; "12"]%string
  /\ protocol_from "udp" = Some UDP /\ protocol_from "UDP" = None
  /\ exists readq showq, forall q : Q, exists r : Q, readq (showq q : string) = Some r /\ (r == q)%Q.
Proof.
  split; [vm_compute; reflexivity|]. split; [vm_compute; reflexivity|]. split; [reflexivity|]. split; [reflexivity|].
  exists (fun s => let (a, b) := split_digits s in
     match s with
     | String c r => let (n, d) := split_digits r in
        match d with String _ d' => match number n, number d' with
          | Some n, Some (Npos d) => Some (Qmake (if Ascii.eqb c "-" then Z.opp (Z.of_N n) else Z.of_N n) d) | _, _ => None end | _ => None end
     | EmptyString => None end),
    (fun q => String (if (Qnum q <? 0)%Z then "-" else "+")%char (show (Z.abs_N (Qnum q)) ++ String "/" (show (Npos (Qden q))))).
  intros [n d]. cbn [Qnum Qden]. exists (Qmake n d). split; [|reflexivity].
  destruct (split_digits (String _ _)) as [a b].
  rewrite digits_show by reflexivity. rewrite !number_show. f_equal. f_equal.
  destruct (Z.ltb_spec n 0); change (Ascii.eqb "-" "-") with true; change (Ascii.eqb "+" "-") with false; cbv iota; lia.
Qed.
