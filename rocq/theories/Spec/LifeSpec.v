(** Vocabulary for C50, C51, C56, C66-C70. *)
From Verif Require Import Model.Base Model.Map Model.Transport Model.Sockets Model.Sim.

(** Some / none of the results is a panic. *)
Definition panicked {X} (l : list (called X)) : Prop := In Panics l.

(** The messages an end sent successfully, and those it received, in order. *)
Definition sent1 {S R} (l : list (ch_res S R)) : list S := flat_map (fun r => match r with RSent1 x Sent => [x] | _ => [] end) l.
Definition sent2 {S R} (l : list (ch_res S R)) : list R := flat_map (fun r => match r with RSent2 x Sent => [x] | _ => [] end) l.
Definition got1 {S R} (l : list (ch_res S R)) : list R := flat_map (fun r => match r with RRecv1 (Got x) => [x] | _ => [] end) l.
Definition got2 {S R} (l : list (ch_res S R)) : list S := flat_map (fun r => match r with RRecv2 (Got x) => [x] | _ => [] end) l.

(** The ids handed out by Simulator::start. *)
Definition sim_ids (l : list sim_result) : list N := flat_map (fun r => match r with SimOk id => [id] | _ => [] end) l.
(** All commands succeed. *)
Definition enable_ok : enable_env := mkEe true true true true true true.
Definition destroy_ok : destroy_env := mkDe true true true true true.

(** An IPC path can be bound: there is nothing there, or something other than a directory that may be removed, and a socket can be created. *)
Definition ipc_bindable {A} {E : EqDec A} (fs : list (A * file)) (a : A) (e : ipc_env) : bool :=
  (match mget a fs with None => true | Some FDir => false | Some _ => ie_remove e end)
  && (match ie_create e with Some _ => true | None => false end).

(** Whether an end of the channel was dropped. *)
Definition in_dec_drop1 {S R} (l : list (ch_op S R)) : bool := existsb (fun o => match o with CDrop1 => true | _ => false end) l.
Definition in_dec_drop2 {S R} (l : list (ch_op S R)) : bool := existsb (fun o => match o with CDrop2 => true | _ => false end) l.

(** dnctl(8): a pipe number is one of 1 ... 65535. *)
Definition pipe_number (n : N) : Prop := 1 <= n <= 65535.
(** The shaping a configuration asks for: the latency in whole milliseconds (1 ms = 10^6 ns), the bandwidth and the loss rate. *)
Definition configured (c : sim_config) : option N * option N * option N :=
  (option_map (fun ns => ns / 10 ^ 6) (sc_latency c), sc_bw c, sc_plr c).
