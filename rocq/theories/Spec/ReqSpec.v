(** Reading histories of a request socket: what the application did and what was observed. *)
From Coq Require Import List NArith.
From Verif Require Import Model.Base Model.WireReqRep Model.ReqDriver.
Import ListNotations.
Open Scope N_scope.

(** The request() calls made, in order, with their payloads. *)
Definition issued (evs : list req_event) : list (N * bytes) :=
  flat_map (fun ev => match ev with EReq c p => [(c, p)] | _ => [] end) evs.

(** The results request() calls got, in order. *)
Definition resolved (l : list out) : list N :=
  flat_map (fun x => match x with Resolve c _ => [c] | _ => [] end) l.

(** Call [c] has no result yet. *)
Definition unresolved (l : list out) (c : N) : Prop := forall r, ~ In (Resolve c r) l.

(** Calls whose frame was queued for sending, with that frame. *)
Definition accepted (l : list out) : list (N * rr_msg) :=
  flat_map (fun x => match x with Accept _ c m => [(c, m)] | _ => [] end) l.

(** Frames handed to a connection (successfully or not). *)
Definition handed (l : list out) : list rr_msg :=
  flat_map (fun x => match x with Handed m _ => [m] | _ => [] end) l.

(** Frames handed to a connection that took them. *)
Definition taken (l : list out) : list rr_msg :=
  flat_map (fun x => match x with Handed m true => [m] | _ => [] end) l.

(** Call [c] was accepted at time [t] and has no result yet. *)
Definition outstanding (l : list out) (t c : N) : Prop := (exists m, In (Accept t c m) l) /\ unresolved l c.

(** A response frame the connection produced at some iteration of the history. *)
Definition response_seen (evs : list req_event) (m : rr_msg) : Prop :=
  exists e, In (EIter e) evs /\ e_next e = NxMsg m.

(** Number of connection attempts. *)
Definition attempts (l : list out) : nat :=
  length (filter (fun x => match x with StartConnect => true | _ => false end) l).

(** The calls that got a response, in order. *)
Definition answered (l : list out) : list N :=
  flat_map (fun x => match x with Resolve c (OOk _) => [c] | _ => [] end) l.

(** Was a connection established? *)
Definition never_connected (l : list out) : Prop := ~ In Connected l.

Definition sum_len (l : list bytes) : N := fold_right (fun b n => blen b + n) 0 l.

(** How many iterations found something (a message or an error) on the connection. *)
Definition inbound (es : list env) : nat :=
  length (filter (fun e => match e_next e with NxMsg _ | NxErr => true | _ => false end) es).

(** ** A concrete history used in the examples: connect, one request, its response. *)
Definition ms : N := 1000000.
Definition ex_env (now : N) : env := mkEnv now false true None NxPending true true 1 true true.
Definition ex_conn (now : N) (ok : bool) : env := mkEnv now false true (Some ok) NxPending true true 1 true true.
Definition ex_in (now : N) (n : next_ans) : env := mkEnv now false true None n true true 1 true true.
Definition ex_opts : ropts := mkROpts (5000 * ms) true (200 * ms) None None 8192.
Definition ex_hist : list req_event :=
  [EIter (ex_env 0); EIter (ex_env (20 * ms)); EReq 7 [x68; x69]; EReq 8 [x79; x6f]; EIter (ex_conn (21 * ms) true);
   EIter (ex_env (22 * ms)); EIter (ex_env (22 * ms)); EIter (ex_env (22 * ms))].
Definition ex_resp (id : N) (b : bytes) : env := ex_in (30 * ms) (NxMsg (rr_new id x00 b)).

(** The connection is up and healthy during an iteration: no new connection comes up, the peer sends a message or nothing,
    and the frame and the closing of the connection are taken. *)
Definition link_up (e : env) : Prop :=
  e_task e = None /\ (e_next e = NxPending \/ exists m, e_next e = NxMsg m) /\ e_ready e = true /\ e_send e = true /\ e_recv e = true /\ e_close e = true.
(** Iterations in which the peer sends nothing. *)
Definition quiet_iters (es : list env) : nat :=
  length (filter (fun e => match e_next e with NxPending => true | _ => false end) es).
