(** Vocabulary for the subscriber properties: functions of the log of effects only. *)
From Coq Require Import List NArith.
From Verif Require Import Model.Base Model.Map Model.WirePubSub Model.Compression Model.Framed Model.WireAuth Model.Stats Model.JoinMap Model.PubDriver Model.SubDriver.
Import ListNotations.
Open Scope N_scope.

(** The log entries that concern connection [cid]. *)
Definition about (cid : N) (x : uout) : bool :=
  match x with
  | UOpen c _ | UTry c _ _ | UGot c _ | UBusy c | UWire c _ _ | URecv c _ _ _ | URecvErr c | UUndecodable c _ | UDeliver c _ _ _ _
  | UClosed c _ | UEnd c | UCrash c => if eq_dec c cid then true else false
  | _ => false
  end.
Definition on (cid : N) (l : list uout) : list uout := filter (about cid) l.

(** The commands the driver has processed, in order. *)
Definition commands (l : list uout) : list scommand := flat_map (fun x => match x with UCmd c => [c] | _ => [] end) l.
(** The successful calls of the application, in order. *)
Definition calls (l : list uout) : list api := flat_map (fun x => match x with UApi f AOk => [f] | _ => [] end) l.

(** Topic [t] is subscribed after the commands [cs]: a subscribe for it is not followed by an unsubscribe. *)
Definition subscribed (cs : list scommand) (t : bytes) : Prop :=
  exists before after, cs = before ++ CSub t :: after /\ ~ In (CUnsub t) after.

(** The commands in [cs] that change the set of subscribed topics, given that it is [known] before. *)
Fixpoint changes (known : list bytes) (cs : list scommand) : list sess_cmd :=
  match cs with
  | [] => []
  | CSub t :: cs' => if smem t known then changes known cs' else SSub t :: changes (sins t known) cs'
  | CUnsub t :: cs' => if smem t known then SUnsub t :: changes (sdel t known) cs' else changes known cs'
  | _ :: cs' => changes known cs'
  end.

(** Commands the driver sent (or tried to send) to the session of connection [cid]; those that went into its channel; those the session
    took out; the frames it wrote on the connection. *)
Definition tried (cid : N) (l : list uout) : list sess_cmd :=
  flat_map (fun x => match x with UTry c s _ => if eq_dec c cid then [s] else [] | _ => [] end) l.
Definition enqueued (cid : N) (l : list uout) : list sess_cmd :=
  flat_map (fun x => match x with UTry c s TSent => if eq_dec c cid then [s] else [] | _ => [] end) l.
Definition got (cid : N) (l : list uout) : list sess_cmd :=
  flat_map (fun x => match x with UGot c s => if eq_dec c cid then [s] else [] | _ => [] end) l.
Definition wired (cid : N) (l : list uout) : list ps_msg :=
  flat_map (fun x => match x with UWire c m _ => if eq_dec c cid then [m] else [] | _ => [] end) l.
(** The topic field of the control frame for a command, as in the protocol. *)
Definition ctl_topic (c : sess_cmd) : bytes := match c with SSub t => sub_prefix ++ t | SUnsub t => unsub_prefix ++ t end.

(** Frames received on connection [cid]; those passed into the channel to the driver; those the driver took out of it. *)
Definition received_on (cid : N) (l : list uout) : list ps_msg :=
  flat_map (fun x => match x with URecv c m _ _ => if eq_dec c cid then [m] else [] | _ => [] end) l.
Definition accepted (cid : N) (l : list uout) : list ps_msg :=
  flat_map (fun x => match x with URecv c m _ TSent => if eq_dec c cid then [m] else [] | _ => [] end) l.
(** What the session measures as latency: the time of receipt minus the frame's timestamp (0 if that is in the future). *)
Definition latencies (cid : N) (l : list uout) : list N :=
  flat_map (fun x => match x with URecv c m now _ => if eq_dec c cid then [now - ps_timestamp m] else [] | _ => [] end) l.
Definition taken (cid : N) (l : list uout) : list tmsg :=
  flat_map (fun x => match x with
    | UUndecodable c m | UDeliver c m _ _ _ => if eq_dec c cid then [m] else [] | _ => [] end) l.
(** Messages of connection [cid] the application got: source, topic, payload. *)
Definition yielded (cid : N) (l : list uout) : list (addr * bytes * bytes) :=
  flat_map (fun x => match x with UYield c a t p => if eq_dec c cid then [(a, t, p)] else [] | _ => [] end) l.
(** Messages waiting in (passed to) the socket's ingress queue, over all connections. *)
Definition queued (l : list uout) : list (N * addr * bytes * bytes) :=
  flat_map (fun x => match x with UDeliver c m a p TSent => [(c, a, tm_topic m, p)] | _ => [] end) l.
Definition yields (l : list uout) : list (N * addr * bytes * bytes) :=
  flat_map (fun x => match x with UYield c a t p => [(c, a, t, p)] | _ => [] end) l.

(** [l] is obtained from [l'] by leaving out elements. *)
Inductive subseq {A} : list A -> list A -> Prop :=
| ss_nil l : subseq [] l
| ss_take x l l' : subseq l l' -> subseq (x :: l) (x :: l')
| ss_skip x l l' : subseq l l' -> subseq l (x :: l').

(** Connection attempts for [a] started, and those that have come to an end. *)
Definition attempts (a : addr) (l : list uout) : nat :=
  length (filter (fun x => match x with UConnect b => if eq_dec b a then true else false | _ => false end) l).
Definition attempts_ended (a : addr) (l : list uout) : nat :=
  length (filter (fun x => match x with
    | UConnectFailed b | UTaskPanic b | UAlready b | UOpen _ b => if eq_dec b a then true else false | _ => false end) l).

(** The command a call of the application stands for.  connect() dials 127.0.0.1 (2130706433) for 0.0.0.0 and for [::], with the port it is given. *)
Definition dialled (a : addr) : addr :=
  match a with AV4 0 port | AV6 0 port _ _ => AV4 2130706433 port | _ => a end.
Definition meaning (f : api) : list scommand :=
  match f with
  | ApSub _ t => [CSub t] | ApUnsub _ t => [CUnsub t]
  | ApConnect _ (Some a) => [CConnect (dialled a)] | ApDisconnect _ (Some a) => [CDisconnect a]
  | _ => []
  end.
(** The commands of successful calls that the driver has not processed yet. *)
Definition waiting_commands (l : list uout) : N := blen (flat_map meaning (calls l)) - blen (commands l).
(** The result of a call when [waiting] commands are in the channel to the driver. *)
Definition call_result (waiting : N) (f : api) : api_res :=
  match f with
  | ApSub _ (x4d :: x53 :: x47 :: _) | ApUnsub _ (x4d :: x53 :: x47 :: _) => AReserved
  | ApConnect _ None | ApDisconnect _ None => ANoEndpoint
  | ApSub try _ | ApUnsub try _ | ApConnect try _ | ApDisconnect try _ =>
    if waiting <? 1024 then AOk else if try then AFull else AWait
  end.
(** The driver has dropped the connection; the session has ended. *)
Definition driver_closed (cid : N) (l : list uout) : Prop := exists lost, In (UClosed cid lost) l.
Definition session_ended (cid : N) (l : list uout) : Prop := In (UEnd cid) l \/ In (UCrash cid) l.

(** Upper bounds for the work left, used for termination.  A session: one turn per waiting frame, two per waiting command. *)
Definition session_work (cid : N) (s : sb) : nat :=
  match mget cid (sb_conns s) with Some x => length (sc_egress x) + 2 * length (sc_cmds x) | None => 0 end.
Definition incoming (n : ps_next) : bool := match n with PnMsg _ | PnErr => true | _ => false end.
(** The driver: one turn per waiting message; a dead connection is reset and redialled up to 16 times; 34 per command. *)
Definition pub_work (s : sb) (st : pstate) : nat :=
  match st with
  | PActive cid => match mget cid (sb_conns s) with Some x => length (sc_in x) + (if sc_alive x then 0 else 33) | None => 0 end
  | PInactive b => 2 * (N.to_nat (Backoff.bo_max b) - N.to_nat (Backoff.bo_count b))
  end.
Definition driver_work (s : sb) : nat :=
  list_sum (map (fun e => pub_work s (snd e)) (sb_pubs s)) + length (jm_tasks (sb_tasks s)) + 34 * length (sb_cmdq s).

(** The statistics after measuring the given latencies, one after another (msg-socket/src/sub/stats.rs 68-75). *)
Definition latency_after (ls : list N) : avg :=
  fold_left (fun a d => match avg_update a d with Some a' => a' | None => a end) ls avg0.

(** ** Material for concrete histories *)
Definition sx_D : decompressors := {| d_gzip := fun _ => None; d_zstd := fun _ => None; d_snappy := fun _ => None; d_lz4 := fun _ => None |}.
Definition sx_run (evs : list sb_event) : sb * list uout := sb_run None 4 1000 sx_D sb_init evs.
Definition sx_addr : addr := AV4 2130706433 80.
(** A turn of a session whose connection accepts everything, and one whose connection accepts nothing. *)
Definition sx_env (n : ps_next) : yenv := mkYenv true n [SaOk; SaOk; SaOk] 5.
Definition sx_stuck : yenv := mkYenv false PnPending [] 5.
(** A frame for topic "a". *)
Definition sx_msg (ctype : byte) (payload : bytes) : ps_next :=
  match ps_new 3 0 [x61] payload ctype with Some m => PnMsg m | None => PnPending end.
(** Subscribe to "a", connect; the connection (number 0) is established. *)
Definition sx_open : list sb_event :=
  [YApi (ApSub true [x61]); YApi (ApConnect true (Some sx_addr)); YCommand; YCommand; YJoin 0 (JConn true []) []].
