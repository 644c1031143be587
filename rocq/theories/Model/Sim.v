(** The network simulator: msg-sim/src/lib.rs and dummynet.rs.

    The effect of the shell commands on the machine is modelled as their manual pages describe it: `dnctl pipe N config` creates or
    reconfigures pipe N, `dnctl pipe delete N` deletes it; `ifconfig lo alias/-alias A` adds / removes an address; `pfctl -f F` replaces the
    main rule set; `pfctl -a X -f F` replaces the rules of anchor X; `pfctl -E` / `-d` switch the packet filter on / off.  A command that
    fails changes nothing (simplification).  Anchors `msg-sim-{id}` are represented by the id. *)
From Verif Require Import Model.Base Model.Map.

(** lib.rs 14-25 SimulationConfig; the packet loss rate (f64) is represented by a number, protocols are numbers. *)
Record sim_config := mkSc { sc_latency : option N; sc_bw : option N; sc_plr : option N; sc_protocols : list N }.

Section Sim.
Context {A : Type} {E : EqDec A}.

(** The machine. *)
Record machine := mkMa {
  ma_pipes : list (N * (option N * option N * option N));   (* pipe -> delay in ms, bandwidth, loss *)
  ma_alias : list A;                                        (* addresses of the loopback interface *)
  ma_mtu : N;
  ma_main : list N;                                         (* anchors the main rule set refers to *)
  ma_rules : list (N * (A * N));                            (* anchor -> traffic to A goes through this pipe *)
  ma_on : bool                                              (* the packet filter is on *)
}.

(** Traffic to [a] is shaped by a pipe with parameters [p]. *)
Definition shaped (m : machine) (a : A) (p : option N * option N * option N) : Prop :=
  ma_on m = true /\ In a (ma_alias m) /\
  exists anchor pipe, In anchor (ma_main m) /\ mget anchor (ma_rules m) = Some (a, pipe) /\ mget pipe (ma_pipes m) = Some p.

(** Which of the commands succeed. *)
Record enable_env := mkEe { ee_pipe : bool; ee_alias : bool; ee_mtu : bool; ee_load : bool; ee_rule : bool; ee_on : bool }.
Record destroy_env := mkDe { de_flush : bool; de_off : bool; de_alias : bool; de_mtu : bool; de_pipe : bool }.

(** The parameters given to the pipe, lib.rs 91-106, dummynet.rs 49-69: latency in milliseconds (whole), bandwidth, loss. *)
Definition pipe_of (c : sim_config) : option N * option N * option N :=
  (match sc_latency c with Some ns => Some (ns / 1000000) | None => None end, sc_bw c, sc_plr c).

(** PacketFilter::enable, dummynet.rs 142-157, for pipe and anchor [id]; result [false]: an error is returned, the commands so far stay done. *)
Definition pf_enable (id : N) (a : A) (c : sim_config) (e : enable_env) (m : machine) : machine * bool :=
  if negb (ee_pipe e) then (m, false) else                                               (* 144 *)
  let m := mkMa (mset id (pipe_of c) (ma_pipes m)) (ma_alias m) (ma_mtu m) (ma_main m) (ma_rules m) (ma_on m) in
  if negb (ee_alias e) then (m, false) else                                              (* 190-194 *)
  let m := mkMa (ma_pipes m) (sins a (ma_alias m)) (ma_mtu m) (ma_main m) (ma_rules m) (ma_on m) in
  if negb (ee_mtu e) then (m, false) else                                                (* 196-199 *)
  let m := mkMa (ma_pipes m) (ma_alias m) 1500 (ma_main m) (ma_rules m) (ma_on m) in
  if negb (ee_load e) then (m, false) else                                               (* 207-229: pf.conf and this anchor, nothing else *)
  let m := mkMa (ma_pipes m) (ma_alias m) (ma_mtu m) [id] (ma_rules m) (ma_on m) in
  (* 234-259: the exit status of this command is not looked at *)
  let m := if ee_rule e then mkMa (ma_pipes m) (ma_alias m) (ma_mtu m) (ma_main m) (mset id (a, id) (ma_rules m)) (ma_on m) else m in
  if negb (ee_on e) then (m, false) else                                                 (* 151-156 *)
  (mkMa (ma_pipes m) (ma_alias m) (ma_mtu m) (ma_main m) (ma_rules m) true, true).

(** PacketFilter::destroy, dummynet.rs 160-187. *)
Definition pf_destroy (id : N) (a : A) (e : destroy_env) (m : machine) : machine * bool :=
  if negb (de_flush e) then (m, false) else
  let m := mkMa (ma_pipes m) (ma_alias m) (ma_mtu m) [] (ma_rules m) (ma_on m) in
  if negb (de_off e) then (m, false) else
  let m := mkMa (ma_pipes m) (ma_alias m) (ma_mtu m) (ma_main m) (ma_rules m) false in
  if negb (de_alias e) then (m, false) else
  let m := mkMa (ma_pipes m) (sdel a (ma_alias m)) (ma_mtu m) (ma_main m) (ma_rules m) (ma_on m) in
  if negb (de_mtu e) then (m, false) else
  let m := mkMa (ma_pipes m) (ma_alias m) 16384 (ma_main m) (ma_rules m) (ma_on m) in
  if negb (de_pipe e) then (m, false) else
  (mkMa (mdel id (ma_pipes m)) (ma_alias m) (ma_mtu m) (ma_main m) (ma_rules m) (ma_on m), true).

(** lib.rs 28-33 Simulator: endpoint -> id of its simulation; next id (usize; simplification: unbounded). *)
Record simulator := mkSim { si_active : list (A * N); si_next : N }.
(** lib.rs 36-38 *)
Definition sim_new : simulator := mkSim [] 1.
(** lib.rs 27 `#[derive(Default)]`: the other public way to make one. *)
Definition sim_default : simulator := mkSim [] 0.

Inductive sim_result := SimOk (id : N) | SimErr | SimPanic | SimDone.

Inductive platform := MacOS | Linux.

(** Simulation::start, lib.rs 85-120. *)
Definition simulation_start (os : platform) (id : N) (a : A) (c : sim_config) (e : enable_env) (m : machine) : machine * bool :=
  match os with Linux => (m, true) | MacOS => pf_enable id a c e m end.

(** Drop for Simulation, lib.rs 123-133; [false]: the `unwrap` panics. *)
Definition simulation_drop (os : platform) (id : N) (a : A) (d : destroy_env) (m : machine) : machine * bool :=
  match os with Linux => (m, true) | MacOS => pf_destroy id a d m end.

(** Simulator::start, lib.rs 41-53.  `insert` returns the simulation that was there before, which is dropped. *)
Definition sim_start (os : platform) (a : A) (c : sim_config) (e : enable_env) (d : destroy_env) (st : simulator * machine)
  : (simulator * machine) * sim_result :=
  let (s, m) := st in
  let id := si_next s in
  let (m1, ok) := simulation_start os id a c e m in
  if negb ok then ((s, m1), SimErr) else
  let s1 := mkSim (mset a id (si_active s)) (id + 1) in
  match mget a (si_active s) with
  | None => ((s1, m1), SimOk id)
  | Some old => let (m2, ok2) := simulation_drop os old a d m1 in
                ((s1, m2), if ok2 then SimOk id else SimPanic)
  end.

(** Simulator::stop, lib.rs 56-59. *)
Definition sim_stop (os : platform) (a : A) (d : destroy_env) (st : simulator * machine) : (simulator * machine) * sim_result :=
  let (s, m) := st in
  match mget a (si_active s) with
  | None => (st, SimDone)
  | Some old => let (m2, ok2) := simulation_drop os old a d m in
                ((mkSim (mdel a (si_active s)) (si_next s), m2), if ok2 then SimDone else SimPanic)
  end.

Inductive sim_op := SimStart (a : A) (c : sim_config) (e : enable_env) (d : destroy_env) | SimStop (a : A) (d : destroy_env).
Definition sim_act (os : platform) (st : simulator * machine) (o : sim_op) :=
  match o with SimStart a c e d => sim_start os a c e d st | SimStop a d => sim_stop os a d st end.
Fixpoint sim_run (os : platform) (st : simulator * machine) (l : list sim_op) : (simulator * machine) * list sim_result :=
  match l with
  | [] => (st, [])
  | o :: l' => let (st1, r) := sim_act os st o in let (st2, rs) := sim_run os st1 l' in (st2, r :: rs)
  end.
End Sim.
Arguments machine : clear implicits. Arguments simulator : clear implicits. Arguments sim_op : clear implicits.
