(** GENERATED by tools/gen_props.py from Proofs/T_Opts.v: statements only. *)

(** Options, the QUIC configuration and the conditions of a simulation: C87-C89. *)
From Coq Require Import List NArith String QArith Qminmax.
From Verif Require Import Model.Base Model.ReqDriver Model.Options Model.QuicConfig Model.SimCmd Spec.OptSpec Spec.SimSpec.
Import ListNotations.
Open Scope N_scope.
From Verif Require Import Proofs.T_Opts.

(** C87 (request socket): after any chain of setter calls on the default options, every option has the value it was last given, and if it was never set its documented default, whatever else was set. *)
Theorem C87_request_options :
  forall calls, req_build calls =
  mkReqO (last_or (fun c => match c with QAuth x => Some (Some x) | _ => None end) None calls)
         (last_or (fun c => match c with QTimeout x => Some x | _ => None end) (5 * s) calls)
         true
         (last_or (fun c => match c with QBackoff x => Some x | _ => None end) (200 * ms) calls)
         (last_or (fun c => match c with QFlush x => Some (Some x) | _ => None end) None calls)
         (last_or (fun c => match c with QBoundary x => Some x | _ => None end) (8 * KiB) calls)
         (last_or (fun c => match c with QRetry x => Some (Some x) | _ => None end) None calls)
         (last_or (fun c => match c with QMinCompress x => Some x | _ => None end) (8 * KiB) calls).
Proof. exact C87_request_options_pf. Qed.
Print Assumptions C87_request_options.

(** C87 (reply socket). *)
Theorem C87_reply_options :
  forall calls, rep_build calls =
  mkRepO (last_or (fun c => match c with PMax x => Some (Some x) | _ => None end) None calls)
         (last_or (fun c => match c with PMinCompress x => Some x | _ => None end) (8 * KiB) calls).
Proof. exact C87_reply_options_pf. Qed.
Print Assumptions C87_reply_options.

(** C87 (publisher socket). *)
Theorem C87_publisher_options :
  forall calls, pub_build calls =
  mkPubO (last_or (fun c => match c with BMax x => Some (Some x) | _ => None end) None calls)
         (last_or (fun c => match c with BBuffer x => Some x | _ => None end) 1024 calls)
         (last_or (fun c => match c with BFlush x => Some (Some x) | _ => None end) (Some (50 * us)) calls)
         (last_or (fun c => match c with BBoundary x => Some x | _ => None end) (8 * KiB) calls)
         (last_or (fun c => match c with BMinCompress x => Some x | _ => None end) (8 * KiB) calls).
Proof. exact C87_publisher_options_pf. Qed.
Print Assumptions C87_publisher_options.

(** C87 (subscriber socket). *)
Theorem C87_subscriber_options :
  forall calls, sub_build calls =
  mkSubO (last_or (fun c => match c with UAuth x => Some (Some x) | _ => None end) None calls)
         (last_or (fun c => match c with UIngress x => Some x | _ => None end) 1024 calls)
         (last_or (fun c => match c with URead x => Some x | _ => None end) (8 * KiB) calls)
         (last_or (fun c => match c with UBackoff x => Some x | _ => None end) (100 * ms) calls).
Proof. exact C87_subscriber_options_pf. Qed.
Print Assumptions C87_subscriber_options.

(** C87 (QUIC configuration): after any chain of builder calls every parameter has the value it was last given, else the documented default (MTU 1460, 50 MiB per second, 100 ms, idle timeout 300 s, keep-alive 15 s). *)
Theorem C87_quic_options :
  forall calls, fold_left qb_setter calls qb_new =
  mkQb (last_or (fun c => match c with QMtu x => Some x | _ => None end) 1460 calls)
       (last_or (fun c => match c with QBandwidth x => Some x | _ => None end) (50 * KiB * KiB) calls)
       (last_or (fun c => match c with QRtt x => Some x | _ => None end) 100 calls)
       (last_or (fun c => match c with QIdle x => Some x | _ => None end) (300 * s) calls)
       (last_or (fun c => match c with QKeepAlive x => Some x | _ => None end) (15 * s) calls).
Proof. exact C87_quic_options_pf. Qed.
Print Assumptions C87_quic_options.

(** C87 is violated: three documented choices cannot be made.  No chain of calls switches blocking connect off (so "enables blocking initial connections" changes nothing), none gives a publisher without a
    flush interval ("if this is None, the session will be flushed on every publish"), and of the request options that can be set, backoff_duration and retry_attempts do not change any history. *)
Theorem C87_unreachable_choices_refuted :
  (forall calls, qo_blocking_connect (req_build calls) = true /\ req_build (calls ++ [QBlocking]) = req_build calls)
  /\ (forall calls, bo_flush_interval (pub_build calls) <> None)
  /\ (forall calls x co D st evs, rd_run (req_ropts (req_build (calls ++ [QBackoff x]))) co D st evs = rd_run (req_ropts (req_build calls)) co D st evs
      /\ rd_run (req_ropts (req_build (calls ++ [QRetry x]))) co D st evs = rd_run (req_ropts (req_build calls)) co D st evs).
Proof. exact C87_unreachable_choices_refuted_pf. Qed.
Print Assumptions C87_unreachable_choices_refuted.

Example C87_example :
  req_build [QTimeout 7; QFlush 3; QTimeout 9; QBlocking] = mkReqO None 9 true 200000000 (Some 3) 8192 None 8192
  /\ pub_build [BFlush 1; BMax 4; BFlush 2] = mkPubO (Some 4) 1024 (Some 2) 8192 8192.
Proof. exact C87_example_pf. Qed.

(** C88 (what holds): with at least 1000 bytes per second, a window that fits 32 bits and a valid idle timeout, build() succeeds (with or without overflow checks) and both windows let [bandwidth] bytes per second through at the expected
    round-trip time (they hold at least the bandwidth-delay product, at most 8 times as much); the other parameters are the configured ones. *)
Theorem C88_window_covers_partial :
  forall checked b, 1000 <= qb_bandwidth b -> 8 * (qb_bandwidth b / 1000 * qb_rtt b) < 2 ^ 32 -> qb_idle b / ms < 2 ^ 62 ->
  exists t, qb_build checked b = Some t /\ qt_send_window t = qt_recv_window t
    /\ bdp1000 (qb_bandwidth b) (qb_rtt b) <= 1000 * qt_recv_window t <= 8 * bdp1000 (qb_bandwidth b) (qb_rtt b)
    /\ qt_keepalive t = qb_keepalive b /\ qt_idle t = qb_idle b / ms /\ qt_initial_rtt t = qb_rtt b
    /\ qt_min_mtu t <= qt_mtu t /\ (1200 <= qb_mtu b -> qt_mtu t = qb_mtu b).
Proof. exact C88_window_covers_partial_pf. Qed.
Print Assumptions C88_window_covers_partial.

(** C88 is violated: below 1000 bytes per second the windows are 0, so no byte can ever be sent; a product that does not fit 32 bits panics with overflow checks, and without them the window is silently cut to 32 bits, for instance 704 bytes for 1 GB/s and 500 ms; an
    idle timeout of 2^62 ms or more panics; a keep-alive interval longer than the idle timeout is accepted. *)
Theorem C88_bad_settings_refuted :
  (forall checked b, qb_bandwidth b < 1000 -> qb_idle b / ms < 2 ^ 62 -> exists t, qb_build checked b = Some t /\ qt_recv_window t = 0 /\ qt_send_window t = 0)
  /\ (forall b, 2 ^ 32 <= 8 * (qb_bandwidth b / 1000 * qb_rtt b) -> qb_build true b = None)
  /\ (forall b t, 2 ^ 32 <= 8 * (qb_bandwidth b / 1000 * qb_rtt b) -> qb_build false b = Some t -> qt_recv_window t = 8 * (qb_bandwidth b / 1000 * qb_rtt b) mod 2 ^ 32)
  /\ (exists b t, qb_bandwidth b < 2 ^ 32 /\ qb_rtt b = 500 /\ qb_build false b = Some t /\ 1000 * qt_recv_window t < bdp1000 (qb_bandwidth b) (qb_rtt b))
  /\ (forall checked b, 2 ^ 62 <= qb_idle b / ms -> qb_build checked b = None)
  /\ (exists t, qb_build true (fold_left qb_setter [QIdle (10 * s)] qb_new) = Some t /\ 1000000 * qt_idle t < qt_keepalive t).
Proof. exact C88_bad_settings_refuted_pf. Qed.
Print Assumptions C88_bad_settings_refuted.

(** C88 (the configurations one gets without choosing): both the default configuration and the builder's defaults have windows for their bandwidth (1000 MiB/s and 50 MiB/s, at 100 ms), and keep-alives within the idle timeout. *)
Theorem C88_defaults_partial :
  bdp1000 (1000 * MiB) 100 <= 1000 * qt_recv_window quic_default /\ qt_send_window quic_default = qt_recv_window quic_default
  /\ qt_recv_window quic_default < 2 ^ 32 /\ qt_keepalive quic_default < ms * qt_idle quic_default
  /\ forall checked, exists t, qb_build checked qb_new = Some t /\ bdp1000 (50 * MiB) 100 <= 1000 * qt_recv_window t /\ qt_keepalive t < ms * qt_idle t.
Proof. exact C88_defaults_partial_pf. Qed.
Print Assumptions C88_defaults_partial.

Example C88_example :
  let b := fold_left qb_setter [QBandwidth 1000000; QRtt 50; QMtu 1300] qb_new in
  1000 <= qb_bandwidth b /\ 8 * (qb_bandwidth b / 1000 * qb_rtt b) < 2 ^ 32 /\ qb_idle b / ms < 2 ^ 62
  /\ qb_build true b = Some (mkQt (15 * s) 300000 1300 1300 400000 400000 50).
Proof. exact C88_example_pf. Qed.

(** C89 (what holds): the command that configures a simulation's pipe makes dnctl configure the pipe of that simulation's id with the configured bandwidth (Kbit/s), the configured latency in whole milliseconds (less than 1 ms is lost), and,
    where nothing is configured, no limit, no delay, no loss; its destroy command deletes the same pipe; and the rule sends the traffic to the endpoint through that pipe. *)
Theorem C89_conditions_partial :
  forall showq readq id endpoint c, (forall q, exists r, readq (showq q) = Some r /\ (r == q)%Q) ->
  let f := sim_filter id endpoint c in
  (exists e, dnctl_config readq (build_cmd showq (pf_pipe f)) = Some (id, e)
    /\ ef_bw e = option_map (fun k => k * 1000) (co_bw c)
    /\ (match co_latency c with Some ns => ef_delay e * ms <= ns < ef_delay e * ms + ms | None => ef_delay e = 0 end)
    /\ (match co_plr c with Some q => (ef_loss e == Qmax 0 (Qmin 1 q))%Q | None => ef_loss e = 0%Q end))
  /\ dnctl_delete (destroy_cmd (pf_pipe f)) = Some id
  /\ dummynet_rule f = Some ("dummynet in from any to " ++ endpoint ++ " pipe " ++ show id)%string.
Proof. exact C89_conditions_partial_pf. Qed.
Print Assumptions C89_conditions_partial.

(** C89 is violated: the loss rate is documented as a percentage but handed on as a fraction, so no loss rate above 0 percent is simulated correctly, and every one from 1 percent on loses all packets. *)
Theorem C89_loss_rate_refuted :
  forall showq readq id endpoint lat bw pr q, (forall q, exists r, readq (showq q) = Some r /\ (r == q)%Q) -> (0 < q)%Q -> (q <= 99)%Q ->
  exists e, dnctl_config readq (build_cmd showq (pf_pipe (sim_filter id endpoint (mkCo lat bw (Some q) pr)))) = Some (id, e)
    /\ ~ (ef_loss e == q / 100)%Q /\ ((1 <= q)%Q -> (ef_loss e == 1)%Q).
Proof. exact C89_loss_rate_refuted_pf. Qed.
Print Assumptions C89_loss_rate_refuted.

(** C89 is violated: the configured protocols make no difference: with any two lists of protocols, the pipe, the rule and all commands are the same. *)
Theorem C89_protocols_ignored_refuted :
  forall showq id endpoint lat bw plr pr1 pr2,
  let f1 := sim_filter id endpoint (mkCo lat bw plr pr1) in let f2 := sim_filter id endpoint (mkCo lat bw plr pr2) in
  dummynet_rule f1 = dummynet_rule f2 /\ build_cmd showq (pf_pipe f1) = build_cmd showq (pf_pipe f2) /\ destroy_cmd (pf_pipe f1) = destroy_cmd (pf_pipe f2)
  /\ pf_anchor f1 = pf_anchor f2.
Proof. exact C89_protocols_ignored_refuted_pf. Qed.
Print Assumptions C89_protocols_ignored_refuted.

Example C89_example :
  let showq := fun q => show (Z.to_N (Qnum q)) in
  let p := pf_pipe (sim_filter 12 "127.0.0.3" (mkCo (Some 2500000) (Some 640) (Some 5%Q) [UDP])) in
  build_cmd showq p = ["sudo"; "dnctl"; "pipe"; "12"; "config"; "bw"; "640Kbit/s"; "delay"; "2"; "plr"; "5"]%string
  /\ destroy_cmd p = ["sudo"; "dnctl"; "pipe"; "delete"; "12"]%string
  /\ protocol_from "udp" = Some UDP /\ protocol_from "UDP" = None
  /\ exists readq showq, forall q : Q, exists r : Q, readq (showq q : string) = Some r /\ (r == q)%Q.
Proof. exact C89_example_pf. Qed.

