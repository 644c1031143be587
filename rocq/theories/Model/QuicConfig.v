(** The QUIC configuration, msg-transport/src/quic/config.rs.  Of quinn's configuration only the parameters set here are modelled; generating
    the certificate (tls.rs 33-39) and the congestion controller are not.  quinn 0.10: `initial_mtu` and `min_mtu` raise their argument to
    1200; `IdleTimeout::try_from` needs the milliseconds to be below 2^62. *)
From Verif Require Import Model.Base.

(** msg-common/src/lib.rs 33 *)
Definition MiB : N := 1024 * 1024.

(** ConfigBuilder, config.rs 17-24; durations in nanoseconds. *)
Record qbuilder := mkQb {
  qb_mtu : N;              (* u16 *)
  qb_bandwidth : N;        (* u32, bytes per second *)
  qb_rtt : N;              (* u32, milliseconds *)
  qb_idle : N;
  qb_keepalive : N }.
(** ConfigBuilder::new, config.rs 32-41 *)
Definition qb_new : qbuilder := mkQb 1460 (50 * MiB) 100 (300 * 1000000000) (15 * 1000000000).

(** The setters, config.rs 44-71 (74-77, the congestion controller, is not modelled). *)
Inductive qb_set := QMtu (n : N) | QBandwidth (n : N) | QRtt (n : N) | QIdle (n : N) | QKeepAlive (n : N).
Definition qb_setter (b : qbuilder) (c : qb_set) : qbuilder :=
  let (m, w, r, i, k) := b in
  match c with
  | QMtu n => mkQb n w r i k
  | QBandwidth n => mkQb m n r i k
  | QRtt n => mkQb m w n i k
  | QIdle n => mkQb m w r n k
  | QKeepAlive n => mkQb m w r i n
  end.

(** What the transport is configured with. *)
Record qtransport := mkQt {
  qt_keepalive : N;             (* nanoseconds *)
  qt_idle : N;                  (* milliseconds *)
  qt_mtu : N; qt_min_mtu : N;
  qt_recv_window : N;           (* per stream, bytes *)
  qt_send_window : N;
  qt_initial_rtt : N }.         (* milliseconds *)

(** u32 multiplication: panics (None) on overflow with overflow checks (debug builds), wraps without (release builds). *)
Definition mul32 (checked : bool) (a b : N) : option N :=
  if a * b <? 2 ^ 32 then Some (a * b) else if checked then None else Some (a * b mod 2 ^ 32).

(** build(), config.rs 80-117; None: panic. *)
Definition qb_build (checked : bool) (b : qbuilder) : option qtransport :=
  match mul32 checked (qb_bandwidth b / 1000) (qb_rtt b) with              (* 84 *)
  | None => None
  | Some rwnd =>
    let idle_ms := qb_idle b / 1000000 in
    if 2 ^ 62 <=? idle_ms then None                                        (* 88-90: "Valid idle timeout" *)
    else match mul32 checked 8 rwnd with                                   (* 98, 101 *)
      | None => None
      | Some w => Some (mkQt (qb_keepalive b) idle_ms (N.max 1200 (qb_mtu b)) (N.max 1200 (qb_mtu b)) w w (qb_rtt b))
      end
  end.

(** Config::default, config.rs 121-170 (its constants are evaluated at compile time: an overflow would be a compile error). *)
Definition quic_default : qtransport :=
  let expected_rtt := 100 in
  let max_stream_bandwidth := MiB * 1000 in
  let rwnd := max_stream_bandwidth / 1000 * expected_rtt in
  mkQt (10 * 1000000000) (300 * 1000) 1460 1460 (8 * rwnd) (8 * rwnd) expected_rtt.
