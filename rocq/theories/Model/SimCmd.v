(** The command lines of the network simulator, msg-sim/src/dummynet.rs and lib.rs 85-120.  An argument is a string. *)
From Coq Require Import String Ascii DecimalString QArith Qminmax.
From Verif Require Import Model.Base.

(** `to_string()` of an unsigned integer. *)
Definition show (n : N) : string := NilEmpty.string_of_uint (N.to_uint n).

Section Cmd.
(** How Rust displays a floating point number (any function; f64 is represented by the rational it stands for, NaN and infinities left out). *)
Variable showq : Q -> string.

(** Pipe, dummynet.rs 10-19. *)
Record pipe := mkPipe { pi_id : N; pi_bw : option N; pi_delay : option N; pi_plr : option Q }.
(** Pipe::new and the setters, dummynet.rs 23-43. *)
Definition pipe_new (id : N) : pipe := mkPipe id None None None.
Definition pipe_bandwidth (p : pipe) (n : N) : pipe := mkPipe (pi_id p) (Some n) (pi_delay p) (pi_plr p).
Definition pipe_delay (p : pipe) (n : N) : pipe := mkPipe (pi_id p) (pi_bw p) (Some n) (pi_plr p).
Definition pipe_plr (p : pipe) (q : Q) : pipe := mkPipe (pi_id p) (pi_bw p) (pi_delay p) (Some q).

(** build_cmd, dummynet.rs 49-69. *)
Definition build_cmd (p : pipe) : list string :=
  ["sudo"; "dnctl"; "pipe"; show (pi_id p); "config"]%string
  ++ match pi_bw p with Some n => ["bw"; show n ++ "Kbit/s"]%string | None => [] end
  ++ match pi_delay p with Some n => ["delay"; show n]%string | None => [] end
  ++ match pi_plr p with Some q => ["plr"%string; showq q] | None => [] end.
(** destroy_cmd, dummynet.rs 80-85. *)
Definition destroy_cmd (p : pipe) : list string := ["sudo"; "dnctl"; "pipe"; "delete"; show (pi_id p)]%string.

(** Protocol, protocol.rs 1-7, and From<&str>, 9-18 (None: panic). *)
Inductive protocol := TCP | UDP | ICMP.
Definition protocol_from (s : string) : option protocol :=
  if (s =? "tcp")%string then Some TCP else if (s =? "udp")%string then Some UDP else if (s =? "icmp")%string then Some ICMP else None.

(** SimulationConfig, lib.rs 14-25; the latency in nanoseconds. *)
Record conditions := mkCo { co_latency : option N; co_bw : option N; co_plr : option Q; co_protocols : list protocol }.

(** PacketFilter, dummynet.rs 96-109, without the loopback name; `new` 113-121, setters 124-139. *)
Record packet_filter := mkPf { pf_pipe : pipe; pf_anchor : string; pf_protocols : list protocol; pf_endpoint : option string }.
Definition pf_new (p : pipe) : packet_filter := mkPf p "msg-sim"%string [TCP; UDP; ICMP] None.

(** Simulation::start up to enable(), lib.rs 90-113. *)
Definition sim_filter (id : N) (endpoint : string) (c : conditions) : packet_filter :=
  let p := pipe_new id in
  let p := match co_latency c with Some ns => pipe_delay p (ns / 1000000) | None => p end in   (* as_millis *)
  let p := match co_bw c with Some n => pipe_bandwidth p n | None => p end in
  let p := match co_plr c with Some q => pipe_plr p q | None => p end in
  let f := pf_new p in
  let f := mkPf (pf_pipe f) ("msg-sim-" ++ show id)%string (pf_protocols f) (pf_endpoint f) in
  let f := mkPf (pf_pipe f) (pf_anchor f) (pf_protocols f) (Some endpoint) in
  match co_protocols c with
  | [] => f
  | l => mkPf (pf_pipe f) (pf_anchor f) l (pf_endpoint f)
  end.

(** The rule, dummynet.rs 234-239 (None: "No endpoint set" panics). *)
Definition dummynet_rule (f : packet_filter) : option string :=
  match pf_endpoint f with
  | Some a => Some ("dummynet in from any to " ++ a ++ " pipe " ++ show (pi_id (pf_pipe f)))%string
  | None => None
  end.
End Cmd.
