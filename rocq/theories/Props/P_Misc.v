(** GENERATED by tools/gen_props.py from Proofs/T_Misc.v: statements only. *)

(** Transports, socket objects, channels and the simulator: C50, C51, C56, C66-C70. *)
From Coq Require Import List NArith.
From Verif Require Import Model.Base Model.Map Model.Transport Model.Sockets Model.Sim Spec.LifeSpec.
Import ListNotations.
Open Scope N_scope.
From Verif Require Import Proofs.T_Misc.

(** C50 (TCP): a socket with a new TCP transport is bound to a list of addresses; [l] lists the addresses with what the operating system does for each (an error, or a listening socket
    that reports the address x).  The addresses are tried in order up to the first one that works; the bind succeeds and local_addr() is what that one reports, or, iff none works, NoValidEndpoints is returned. *)
Theorem C50_tcp :
  forall (A : Type) (l : list (A * option (lsock A))),
  (forall a k, ~ In (a, Some (mkLs k None)) l) ->
  match sv_try_bind tcp_bind tcp_local true (sv_new tcp_new) l with
  | (s, Returns _, tried) => exists pre a k x post, l = pre ++ (a, Some (mkLs k (Some x))) :: post /\ (forall b r, In (b, r) pre -> r = None) /\
                               tried = map fst pre ++ [a] /\ sv_local s = Some x
  | (s, Fails e, tried) => e = NoValidEndpoints /\ (forall b r, In (b, r) l -> r = None) /\ tried = map fst l /\ sv_local s = None
  | (_, Panics, _) => False
  end.
Proof. exact C50_tcp_pf. Qed.
Print Assumptions C50_tcp.

(** C50 (QUIC): the same. *)
Theorem C50_quic :
  forall (A : Type) (l : list (A * option (lsock A))),
  (forall a k, ~ In (a, Some (mkLs k None)) l) ->
  match sv_try_bind quic_bind quic_local true (sv_new quic_new) l with
  | (s, Returns _, tried) => exists pre a k x post, l = pre ++ (a, Some (mkLs k (Some x))) :: post /\ (forall b r, In (b, r) pre -> r = None) /\
                               tried = map fst pre ++ [a] /\ sv_local s = Some x
  | (s, Fails e, tried) => e = NoValidEndpoints /\ (forall b r, In (b, r) l -> r = None) /\ tried = map fst l /\ sv_local s = None
  | (_, Panics, _) => False
  end.
Proof. exact C50_quic_pf. Qed.
Print Assumptions C50_quic.

(** C50 (IPC): the same, in terms of the files that exist beforehand; local_addr() is the path itself. *)
Theorem C50_ipc :
  forall (A : Type) (E : EqDec A) (fs : list (A * file)) (l : list (A * ipc_env)), NoDup (map fst l) ->
  match sv_try_bind ipc_bind ipc_local true (sv_new (ipc_new fs)) l with
  | (s, Returns _, tried) => exists pre a e post, l = pre ++ (a, e) :: post /\ (forall b r, In (b, r) pre -> ipc_bindable fs b r = false) /\ ipc_bindable fs a e = true /\
                               tried = map fst pre ++ [a] /\ sv_local s = Some a
  | (s, Fails e, tried) => e = NoValidEndpoints /\ (forall b r, In (b, r) l -> ipc_bindable fs b r = false) /\ tried = map fst l /\ sv_local s = None
  | (_, Panics, _) => False
  end.
Proof. exact C50_ipc_pf. Qed.
Print Assumptions C50_ipc.

(** C50 (a transport that the program has already bound itself): if no address of the list works, the bind succeeds all the same and keeps the transport's old address. *)
Theorem C50_transport_already_bound :
  forall (A : Type) (k : N) (x : A) (l : list A),
  sv_try_bind tcp_bind tcp_local true (sv_new (mkTcp (Some (mkLs k (Some x))))) (map (fun a => (a, None)) l) = (mkSrv None true (Some x), Returns tt, l).
Proof. exact C50_transport_already_bound_pf. Qed.
Print Assumptions C50_transport_already_bound.

Example C50_example :
  sv_try_bind tcp_bind tcp_local true (sv_new tcp_new) [(10, None); (0, Some (mkLs 7 (Some 40001))); (30, Some (mkLs 8 (Some 30)))] = (mkSrv None true (Some 40001), Returns tt, [10; 0])
  /\ sv_try_bind tcp_bind tcp_local true (sv_new tcp_new) [(10, None); (20, None)] = (mkSrv None false None, Fails NoValidEndpoints, [10; 20])
  /\ snd (fst (sv_try_bind ipc_bind ipc_local true (sv_new (ipc_new [(1, FDir); (2, FRegular)])) [(1, mkIe true (Some 5)); (2, mkIe true (Some 5))])) = Returns tt.
Proof. exact C50_example_pf. Qed.

(** C51 is false: a connection whose accept future is not ready when it is first polled is dropped: the caller of accept() never gets it, whatever happens before and after, and its task sleeps
    without anybody to wake it up. *)
Theorem C51_pending_handshake_is_lost_refuted :
  forall w c before after, (0 < w)%nat ->
  accept_loop (before ++ Some (mkFut w (InConn c)) :: after) = accept_loop before ++ accept_loop after
  /\ acceptor_poll (Some (mkFut w (InConn c))) = ASleep WakeByNobody.
Proof. exact C51_pending_handshake_is_lost_refuted_pf. Qed.
Print Assumptions C51_pending_handshake_is_lost_refuted.

(** C51 is false for QUIC: there is a run of a bound QUIC transport with one inbound connection whose handshake completes on its second poll in which accept() never returns. *)
Theorem C51_quic_refuted :
  exists (t : quic N) polls, q_endpoint t = Some (mkLs 1 (Some 5000)) /\ polls = [QConnecting 1 (InConn 77); QPending; QPending] /\
  accept_loop (map (fun p => snd (quic_poll_accept t (fun _ => p))) polls) = [].
Proof. exact C51_quic_refuted_pf. Qed.
Print Assumptions C51_quic_refuted.

(** C51 (TCP): accept() returns exactly the connections of the listening socket, in order; a sleeping caller is woken by the listening socket. *)
Theorem C51_tcp_partial :
  forall (A : Type) (l : lsock A) (polls : list lpoll),
  accept_loop (map (fun p => tcp_poll_accept (mkTcp (Some l)) (fun _ => p)) polls)
    = flat_map (fun p => match p with LPending => [] | LConn c true => [InConn c] | LConn _ false => [InErr] | LErr => [InErr] end) polls
  /\ forall p, acceptor_poll (tcp_poll_accept (mkTcp (Some l)) (fun _ => p)) <> ASleep WakeByNobody.
Proof. exact C51_tcp_partial_pf. Qed.
Print Assumptions C51_tcp_partial.

(** C51 (IPC): the same. *)
Theorem C51_ipc_partial :
  forall (A : Type) (fs : list (A * file)) (k : N) (path : A) (polls : list lpoll),
  accept_loop (map (fun p => ipc_poll_accept (mkIpc fs (Some k) (Some path)) (fun _ => p)) polls)
    = flat_map (fun p => match p with LPending => [] | LConn c _ => [InConn c] | LErr => [InErr] end) polls
  /\ forall p, acceptor_poll (ipc_poll_accept (mkIpc fs (Some k) (Some path)) (fun _ => p)) <> ASleep WakeByNobody.
Proof. exact C51_ipc_partial_pf. Qed.
Print Assumptions C51_ipc_partial.

Example C51_example :
  accept_loop (map (fun p => tcp_poll_accept (mkTcp (Some (mkLs 1 (Some 5000)))) (fun _ => p)) [LPending; LConn 3 true; LConn 4 true; LErr; LConn 5 true]) = [InConn 3; InConn 4; InErr; InConn 5].
Proof. exact C51_example_pf. Qed.

(** C68 (TCP, IPC): after a successful bind, what accept() looks at is the listening socket of that bind, and local_addr() is its address; an unsuccessful bind changes neither. *)
Theorem C68_tcp_ipc_partial :
  (forall (A : Type) (t : tcp A) a l, tcp_bind t a (Some l) = (mkTcp (Some l), true) /\ tcp_local (mkTcp (Some l)) = ls_addr l /\
     (forall poll, tcp_poll_accept (mkTcp (Some l)) poll = tcp_poll_accept (mkTcp (Some l)) (fun _ => poll l)) /\ tcp_bind t a None = (t, false))
  /\ (forall (A : Type) (E : EqDec A) (t t' : ipc A) a e, ipc_bind t a e = (t', true) ->
       exists k, ie_create e = Some k /\ ipc_local t' = Some a /\ ipc_reaches (ipc_files t') a = Some k /\ forall poll, ipc_poll_accept t' poll = ipc_poll_accept t' (fun _ => poll k))
  /\ (forall (A : Type) (E : EqDec A) (t t' : ipc A) a e, ipc_bind t a e = (t', false) -> ipc_local t' = ipc_local t /\ forall poll, ipc_poll_accept t' poll = ipc_poll_accept t poll).
Proof. exact C68_tcp_ipc_partial_pf. Qed.
Print Assumptions C68_tcp_ipc_partial.

(** C68 is false for QUIC: after bind, accept, bind the transport reports the second address but accept() only ever looks at the connections made to the first one. *)
Theorem C68_quic_rebind_refuted :
  forall (A : Type) (a1 a2 : A) (k1 k2 : N) (x1 x2 : option A) p0,
  let t1 := fst (quic_bind quic_new a1 (Some (mkLs k1 x1))) in
  let t2 := fst (quic_poll_accept t1 p0) in
  let t3 := fst (quic_bind t2 a2 (Some (mkLs k2 x2))) in
  quic_local t3 = x2 /\ forall poll, quic_poll_accept t3 poll = quic_poll_accept t3 (fun _ => poll (mkLs k1 x1)).
Proof. exact C68_quic_rebind_refuted_pf. Qed.
Print Assumptions C68_quic_rebind_refuted.

(** C68 (QUIC): as long as no connection was accepted before, accept() looks at the endpoint of the last bind. *)
Theorem C68_quic_partial :
  forall (A : Type) (t : quic A) a l poll, q_incoming t = None ->
  quic_bind t a (Some l) = (mkQ (Some l) None, true) /\ quic_local (mkQ (Some l) None) = ls_addr l /\
  quic_poll_accept (mkQ (Some l) None) poll = (mkQ (Some l) (Some l), snd (quic_poll_accept (mkQ (Some l) None) (fun _ => poll l))).
Proof. exact C68_quic_partial_pf. Qed.
Print Assumptions C68_quic_partial.

(** C68, QUIC (what holds): outbound connections never replace the endpoint the transport is bound to (they share it), and leave accepting as it
    was; without a bound endpoint the first one creates an endpoint, which all later ones and accept use. *)
Theorem C68_quic_connect_partial :
  forall (A : Type) (t : quic A) (rs : list (option (lsock A))),
  let ts := fold_left (fun t r => fst (quic_connect t r)) rs t in
  q_incoming ts = q_incoming t
  /\ (forall l r, q_endpoint t = Some l -> q_endpoint ts = Some l /\ snd (quic_connect ts r) = Some l)
  /\ (q_endpoint t = None -> (forall r, In r rs -> r = None) -> q_endpoint ts = None)
  /\ (forall l rs1 rs2 r, q_endpoint t = None -> rs = rs1 ++ Some l :: rs2 -> (forall r, In r rs1 -> r = None) ->
      q_endpoint ts = Some l /\ quic_local ts = ls_addr l /\ snd (quic_connect ts r) = Some l).
Proof. exact C68_quic_connect_partial_pf. Qed.
Print Assumptions C68_quic_connect_partial.

(** C69 is false: binding an IPC socket to the path of another, live socket succeeds and takes its clients away, although the first one still reports the path as its own; and binding to the path of an
    ordinary file deletes it. *)
Theorem C69_path_taken_over_refuted :
  forall (A : Type) (E : EqDec A) (p : A) fs k1 k2, mget p fs = None ->
  let t1 := fst (ipc_bind (ipc_new fs) p (mkIe true (Some k1))) in
  ipc_local t1 = Some p /\ ipc_reaches (ipc_files t1) p = Some k1 /\
  let (t2, ok) := ipc_bind (ipc_new (ipc_files t1)) p (mkIe true (Some k2)) in
  ok = true /\ ipc_reaches (ipc_files t2) p = Some k2.
Proof. exact C69_path_taken_over_refuted_pf. Qed.
Print Assumptions C69_path_taken_over_refuted.

(** C69 is false (ordinary files): see above. *)
Theorem C69_file_deleted_refuted :
  exists (fs : list (N * file)), mget 1 fs = Some FRegular /\ mget 1 (ipc_files (fst (ipc_bind (ipc_new fs) 1 (mkIe true None)))) = None.
Proof. exact C69_file_deleted_refuted_pf. Qed.
Print Assumptions C69_file_deleted_refuted.

(** C69 (what holds): a bind never touches anything at another path, and never removes a directory. *)
Theorem C69_other_paths_untouched_partial :
  forall (A : Type) (E : EqDec A) (t : ipc A) a e,
  (forall b, b <> a -> mget b (ipc_files (fst (ipc_bind t a e))) = mget b (ipc_files t))
  /\ (mget a (ipc_files t) = Some FDir -> ipc_bind t a e = (t, false)).
Proof. exact C69_other_paths_untouched_partial_pf. Qed.
Print Assumptions C69_other_paths_untouched_partial.

(** C66 is false: after a bind that failed because no address worked, the next bind panics, whatever addresses it is given; and a reply socket that is not bound panics when it is polled. *)
Theorem C66_rebind_panics_refuted :
  forall (A : Type) (l : list A) l2,
  snd (sv_run tcp_bind tcp_local true true (sv_new tcp_new) [SBind (Some (map (fun a => (a, None)) l)); SBind (Some l2); SUse]) = [Fails NoValidEndpoints; Panics; Panics].
Proof. exact C66_rebind_panics_refuted_pf. Qed.
Print Assumptions C66_rebind_panics_refuted.

(** C66 (what holds, reply and publisher sockets): in every history the result of a call is determined as follows.  A bind whose name lookup fails returns that error and may be repeated; a bind after
    one whose lookup succeeded panics.  Once bound, using the socket always works; before, the publisher returns SocketClosed and the reply socket panics. *)
Theorem C66_server_law_partial :
  forall (A T O : Type) (bind : T -> A -> O -> T * bool) (local : T -> option A) is_rep t ops s rs,
  sv_run bind local true is_rep (sv_new t) ops = (s, rs) ->
  let taken := exists l, In (SBind (Some l)) ops in
  let bound := exists pre l post, ops = pre ++ SBind (Some l) :: post /\ nth_error rs (length pre) = Some (Returns tt) in
  snd (sv_op bind local true is_rep s (SBind None)) = Fails LookupFailed
  /\ (taken -> forall l, snd (sv_op bind local true is_rep s (SBind (Some l))) = Panics)
  /\ (~ taken -> forall l, snd (sv_op bind local true is_rep s (SBind (Some l))) <> Panics)
  /\ (bound -> snd (sv_op bind local true is_rep s SUse) = Returns tt)
  /\ (~ bound -> snd (sv_op bind local true is_rep s SUse) = if is_rep then Panics else Fails SocketClosed).
Proof. exact C66_server_law_partial_pf. Qed.
Print Assumptions C66_server_law_partial.

(** C66 is false (request socket): a second connect panics. *)
Theorem C66_reconnect_panics_refuted :
  snd (cl_run 5000000000 None cl_new [KRequest; KConnect (Some 1); KRequest; KConnect (Some 1); KRequest]) = [Fails SocketClosed; Returns tt; Returns tt; Panics; Returns tt].
Proof. exact C66_reconnect_panics_refuted_pf. Qed.
Print Assumptions C66_reconnect_panics_refuted.

(** C66 (what holds, request socket with usable options): a connect whose lookup fails or finds nothing returns an error and may be repeated; the first other connect succeeds, later ones panic; request
    returns SocketClosed before the connect, and is handed to the driver afterwards. *)
Theorem C66_client_law_partial :
  forall timeout flush ops s rs, 10 <= timeout -> flush <> Some 0 ->
  cl_run timeout flush cl_new ops = (s, rs) ->
  let connected := exists n, In (KConnect (Some n)) ops /\ n <> 0 in
  snd (cl_op timeout flush s (KConnect None)) = Fails LookupFailed
  /\ snd (cl_op timeout flush s (KConnect (Some 0))) = Fails NoValidEndpoints
  /\ (connected -> (forall n, n <> 0 -> snd (cl_op timeout flush s (KConnect (Some n))) = Panics) /\ snd (cl_op timeout flush s KRequest) = Returns tt)
  /\ (~ connected -> (forall n, n <> 0 -> snd (cl_op timeout flush s (KConnect (Some n))) = Returns tt) /\ snd (cl_op timeout flush s KRequest) = Fails SocketClosed).
Proof. exact C66_client_law_partial_pf. Qed.
Print Assumptions C66_client_law_partial.

(** C66, request socket with options tokio rejects (C67): the first connect panics and takes the transport with it: every later connect panics
    too, whatever happened before, and requests fail. *)
Theorem C66_client_bad_options_partial :
  forall timeout flush ops s rs, timeout < 10 \/ flush = Some 0 ->
  cl_run timeout flush cl_new ops = (s, rs) ->
  (forall n, n <> 0 -> snd (cl_op timeout flush s (KConnect (Some n))) = Panics) /\ snd (cl_op timeout flush s KRequest) = Fails SocketClosed /\
  (forall t2 f2 n m, n <> 0 -> In (KConnect (Some n)) ops -> m <> 0 -> snd (cl_op t2 f2 s (KConnect (Some m))) = Panics).
Proof. exact C66_client_bad_options_partial_pf. Qed.
Print Assumptions C66_client_bad_options_partial.

(** C67 is false: there are option values that make the socket panic: a request timeout below 10 ns, a flush interval of 0, a publisher session buffer of 0, a subscriber ingress buffer of 0. *)
Theorem C67_panicking_options_refuted :
  (forall timeout flush, timeout < 10 -> snd (req_try_connect timeout flush cl_new) = Panics)
  /\ (forall timeout, snd (req_try_connect timeout (Some 0) cl_new) = Panics)
  /\ (forall (A T O : Type) (bind : T -> A -> O -> T * bool) local t l, snd (fst (sv_try_bind bind local (broadcast_capacity_ok 0) (sv_new t) l)) = Panics)
  /\ pub_session_ok (Some 0) = false
  /\ sub_new_ok 0 = Panics.
Proof. exact C67_panicking_options_refuted_pf. Qed.
Print Assumptions C67_panicking_options_refuted.

(** C67 (what holds): all other values are fine (buffers up to 2^61 - 1 and 2^63 - 1 messages). *)
Theorem C67_other_options_work_partial :
  (forall timeout flush, 10 <= timeout -> flush <> Some 0 -> req_try_connect timeout flush cl_new = (mkCl false true, Returns tt))
  /\ (forall n, 0 < n < 2 ^ 63 -> broadcast_capacity_ok n = true)
  /\ (forall (A T O : Type) (bind : T -> A -> O -> T * bool) local t l, snd (fst (sv_try_bind bind local true (sv_new t) l)) <> Panics)
  /\ (forall p, p <> Some 0 -> pub_session_ok p = true)
  /\ (forall n, 0 < n < 2 ^ 61 -> sub_new_ok n = Returns tt).
Proof. exact C67_other_options_work_partial_pf. Qed.
Print Assumptions C67_other_options_work_partial.

(** C70: a bi-directional channel in any history of uses of its two ends: what one end receives is what the other sent, in order, without loss or duplication.  The next send is refused with
    Full iff [buffer] messages are on their way and with Closed iff the other end is gone; the next receive yields the oldest message on its way, else the end iff the other end is gone. *)
Theorem C70_channel :
  forall (S R : Type) txb rxb (c0 : chans S R) ops c rs, channel txb rxb = Some c0 -> ch_run c0 ops = (c, rs) ->
  (exists q1, sent1 rs = got2 rs ++ q1 /\
    (~ In CDrop1 ops -> ~ In CDrop2 ops -> forall x, snd (ch_act c (CSend1 x)) = RSent1 x (if txb <=? blen q1 then Full else Sent)) /\
    (~ In CDrop1 ops -> In CDrop2 ops -> forall x, snd (ch_act c (CSend1 x)) = RSent1 x Closed) /\
    (~ In CDrop2 ops -> snd (ch_act c CRecv2) = RRecv2 (match q1 with x :: _ => Got x | [] => if in_dec_drop1 ops then End else Nothing end)))
  /\ (exists q2, sent2 rs = got1 rs ++ q2 /\
    (~ In CDrop2 ops -> ~ In CDrop1 ops -> forall x, snd (ch_act c (CSend2 x)) = RSent2 x (if rxb <=? blen q2 then Full else Sent)) /\
    (~ In CDrop2 ops -> In CDrop1 ops -> forall x, snd (ch_act c (CSend2 x)) = RSent2 x Closed) /\
    (~ In CDrop1 ops -> snd (ch_act c CRecv1) = RRecv1 (match q2 with x :: _ => Got x | [] => if in_dec_drop2 ops then End else Nothing end))).
Proof. exact C70_channel_pf. Qed.
Print Assumptions C70_channel.

Example C70_example :
  exists c0, @channel N N 2 1 = Some c0 /\
  snd (ch_run c0 [CSend1 5; CSend1 6; CSend1 7; CRecv2; CSend2 9; CSend2 10; CRecv1; CDrop1; CRecv2; CRecv2; CSend2 3]) =
  [RSent1 5 Sent; RSent1 6 Sent; RSent1 7 Full; RRecv2 (Got 5); RSent2 9 Sent; RSent2 10 Full; RRecv1 (Got 9); RNone; RRecv2 (Got 6); RRecv2 End; RSent2 3 Closed].
Proof. exact C70_example_pf. Qed.

(** C56 (ids): in every history of one Simulator, however made, on any platform and whatever commands fail, the ids returned by start are strictly increasing (so pairwise distinct); as long as no call panics, those of Simulator::new() are 1, 2, 3 and so on, without a gap, and never 0 in any case. *)
Theorem C56_ids_distinct_partial :
  forall (A : Type) (E : EqDec A) os m ops s0 st rs, s0 = @sim_new A \/ s0 = @sim_default A -> sim_run os (s0, m) ops = (st, rs) ->
  (forall l1 l2 l3 i j, sim_ids rs = l1 ++ i :: l2 ++ j :: l3 -> i < j)
  /\ (s0 = @sim_new A -> (forall i, In i (sim_ids rs) -> 1 <= i)
      /\ (~ In SimPanic rs -> sim_ids rs = map N.of_nat (seq 1 (List.length (sim_ids rs))))).
Proof. exact C56_ids_distinct_partial_pf. Qed.
Print Assumptions C56_ids_distinct_partial.

(** C56 is false of a Simulator made with Simulator::default(): the id its first successful start returns, if any, is 0, and 0 is no pipe number: on macOS the start would have to have configured a pipe that cannot exist. *)
Theorem C56_default_id_refuted :
  forall (A : Type) (E : EqDec A) os m ops st rs i l, sim_run os (@sim_default A, m) ops = (st, rs) -> sim_ids rs = i :: l ->
  i = 0 /\ ~ pipe_number i.
Proof. exact C56_default_id_refuted_pf. Qed.
Print Assumptions C56_default_id_refuted.

(** C56 (macOS, what holds): when all commands work, starting a simulation on an endpoint that has none shapes the traffic to that endpoint as configured... *)
Theorem C56_first_start_partial :
  forall (A : Type) (E : EqDec A) (s : simulator A) m a c d, mget a (si_active s) = None ->
  exists s' m', sim_start MacOS a c enable_ok d (s, m) = ((s', m'), SimOk (si_next s)) /\
  mget a (si_active s') = Some (si_next s) /\ shaped m' a (configured c).
Proof. exact C56_first_start_partial_pf. Qed.
Print Assumptions C56_first_start_partial.

(** C56 is false (macOS): ...but restarting a simulation on an endpoint, with all commands working, ends with the traffic to no endpoint being shaped at all, although start returned Ok. *)
Theorem C56_restart_destroys_refuted :
  forall (A : Type) (E : EqDec A) (s : simulator A) m a c old, mget a (si_active s) = Some old ->
  exists s' m', sim_start MacOS a c enable_ok destroy_ok (s, m) = ((s', m'), SimOk (si_next s)) /\
  mget a (si_active s') = Some (si_next s) /\ forall b p, ~ shaped m' b p.
Proof. exact C56_restart_destroys_refuted_pf. Qed.
Print Assumptions C56_restart_destroys_refuted.

(** C56 is false (macOS): starting a simulation on a second endpoint, or stopping one, ends the shaping of every other endpoint. *)
Theorem C56_others_destroyed_refuted :
  forall (A : Type) (E : EqDec A) (s : simulator A) m a b c d p, b <> a ->
  (mget a (si_active s) = None -> mget (si_next s) (ma_rules m) = None ->
     forall st' r, sim_start MacOS a c enable_ok d (s, m) = (st', r) -> ~ shaped (snd st') b p)
  /\ (mget a (si_active s) <> None -> forall st' r, sim_stop MacOS a destroy_ok (s, m) = (st', r) -> ~ shaped (snd st') b p).
Proof. exact C56_others_destroyed_refuted_pf. Qed.
Print Assumptions C56_others_destroyed_refuted.

(** C56 (stop): a stopped simulation is no longer listed and (macOS, all commands working) its endpoint's traffic is not shaped. *)
Theorem C56_stop_partial :
  forall (A : Type) (E : EqDec A) os (s : simulator A) m a st' r, sim_stop os a destroy_ok (s, m) = (st', r) ->
  r = SimDone /\ mget a (si_active (fst st')) = None /\ (os = MacOS -> mget a (si_active s) <> None -> forall p, ~ shaped (snd st') a p).
Proof. exact C56_stop_partial_pf. Qed.
Print Assumptions C56_stop_partial.

(** C56 (Linux): the simulator does nothing: start succeeds and the machine stays as it is. *)
Theorem C56_linux_noop_refuted :
  forall (A : Type) (E : EqDec A) (s : simulator A) m a c e d, exists s', sim_start Linux a c e d (s, m) = ((s', m), SimOk (si_next s)).
Proof. exact C56_linux_noop_refuted_pf. Qed.
Print Assumptions C56_linux_noop_refuted.

Example C56_example :
  let m0 := mkMa [] [] 16384 [] [] false in
  let cfg := mkSc (Some 50000000) (Some 1000) None [] in
  snd (sim_run MacOS (@sim_new N, m0) [SimStart 1 cfg enable_ok destroy_ok; SimStart 2 cfg (mkEe true true false true true true) destroy_ok; SimStart 2 cfg enable_ok destroy_ok; SimStart 1 cfg enable_ok destroy_ok; SimStop 1 destroy_ok; SimStop 1 destroy_ok])
    = [SimOk 1; SimErr; SimOk 2; SimOk 3; SimDone; SimDone]
  /\ snd (sim_run Linux (@sim_default N, m0) [SimStart 1 cfg enable_ok destroy_ok; SimStart 2 cfg enable_ok destroy_ok]) = [SimOk 0; SimOk 1].
Proof. exact C56_example_pf. Qed.

