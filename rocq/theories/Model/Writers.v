(** The four users of a connection's write half, joined with the model of that half (Model/FramedWrite.v): what the
    driver models take as arbitrary answers of poll_flush / poll_ready / start_send / poll_close is computed here from
    the state of the `Framed` and from what the transport answers to writes.

    [wans]: the transport's answers to the writes made during one loop iteration, separately for poll_flush, poll_ready and
    poll_close of that iteration (each list is used from its front; exhausted = not ready). *)
From Verif Require Import Model.Base Model.Map Model.Framed Model.FramedWrite Model.WireReqRep Model.WirePubSub Model.Compression
  Model.Backoff Model.Trie Model.Utf8 Model.ReqDriver Model.RepDriver Model.PubDriver Model.SubDriver.

Record wans := mkWans { wa_flush : list wr; wa_ready : list wr; wa_close : list wr }.

Definition is_ok (r : wres) : bool := match r with WReady => true | _ => false end.            (* Poll::Ready(Ok(_)) *)
Definition is_ready (r : wres) : bool := match r with WPending => false | _ => true end.       (* .is_ready() *)

(** ** Request socket: one iteration of ReqDriver::poll (req/driver.rs 260-389) with the channel's write half. *)
Section Req.
Variables (o : ropts) (co : option compressor) (D : decompressors) (boundary : N).    (* ReqOptions::backpressure_boundary, 280 *)

Definition is_active (s : rd) : bool := match rd_conn s with RActive => true | _ => false end.
Definition with_answers (e : env) (fl rdy cl : bool) : env :=
  mkEnv (e_now e) (e_flush_tick e) fl (e_task e) (e_next e) rdy true (e_ticks e) (e_recv e) cl.

Definition rw_iter (e : env) (a : wans) (s : rd) (w : fw) : rd * fw * list out * ctl :=
  (* 262-268 *)
  let tick := match ro_flush_interval o with Some _ => e_flush_tick e | None => true end in
  let '(w1, r1) := if rd_flush s && tick && is_active s then fst (fw_flush w (wa_flush a)) else (w, WPending) in
  (* 271-284: a successful connection task brings a new Framed *)
  let connected := rd_task s && match e_task e with Some true => true | _ => false end in
  let w2 := if connected then fw_new else w1 in
  (* 316: only if nothing was read, 341 is reached *)
  let writing := (is_active s || connected) && match e_next e with NxPending => true | _ => false end in
  let '(w3, r3) := if writing then fst (fw_ready boundary w2 (wa_ready a)) else (w2, WPending) in
  let sending := writing && is_ready r3 in
  (* 343-347 *)
  let w4 := match (if sending then rd_egress s else []) with m :: _ => fw_send rr_encode m w3 | [] => w3 end in
  (* 375-379 *)
  let closing := writing && match (if sending then rd_egress s else []) with [] => true | _ => false end
                 && e_recv e && match rd_cmds s with [] => true | _ => false end && rd_dropped s in
  let '(w5, r5) := if closing then fst (fw_close w4 (wa_close a)) else (w4, WPending) in
  match rd_iter o co D (with_answers e (is_ok r1) (is_ready r3) (is_ready r5)) s with
  | (s', os, c) => (s', w5, os, c)
  end.

Inductive rw_event :=
| RwReq (call : N) (payload : bytes)
| RwDrop
| RwIter (e : env) (a : wans).

Definition rw_step (s : rd) (w : fw) (ev : rw_event) : rd * fw * list out :=
  match ev with
  | RwReq c payload => let (s', os) := rd_step o co D s (EReq c payload) in (s', w, os)
  | RwDrop => let (s', os) := rd_step o co D s EDrop in (s', w, os)
  | RwIter e a => if rd_done s then (s, w, []) else match rw_iter e a s w with (s', w', os, _) => (s', w', os) end
  end.
Fixpoint rw_run (s : rd) (w : fw) (evs : list rw_event) : rd * fw * list out :=
  match evs with
  | [] => (s, w, [])
  | ev :: evs' =>
    match rw_step s w ev with
    | (s1, w1, o1) => match rw_run s1 w1 evs' with (s2, w2, o2) => (s2, w2, o1 ++ o2) end
    end
  end.
End Req.

(** tokio-util's default back-pressure boundary (framed_impl.rs INITIAL_CAPACITY), used by the reply and the subscriber socket. *)
Definition default_boundary : N := 8192.

(** ** Reply socket: one iteration of PeerState::poll_next (rep/driver.rs 260-350) with the connection's write half.
    The oneshot channels [os] may be anything in each iteration. *)
Section Rep.
Variables (min : N) (co : option compressor).
Definition pw_iter (e : penv) (a : wans) (os : list (N * os_state)) (rid : N) (p : peer) (w : fw)
  : peer * fw * list rout * pres :=
  let '(w1, r1) := if pr_flush p then fst (fw_flush w (wa_flush a)) else (w, WPending) in       (* 262-266 *)
  let '(w2, r2) := fst (fw_ready default_boundary w1 (wa_ready a)) in                           (* 269 *)
  let w3 := match (if is_ready r2 then pr_egress p else []) with m :: _ => fw_send rr_encode m w2 | [] => w2 end in (* 270-272 *)
  match peer_iter min co (mkPenv (is_ok r1) (is_ready r2) true (p_pref e) (p_next e)) os rid p 0 0 with
  | (p', _, _, o, r) => (p', w3, o, r)
  end.
Record pw_input := mkPwIn { pi_env : penv; pi_wans : wans; pi_os : list (N * os_state); pi_rid : N }.
(** A history of the connection, up to and including the iteration that ends it. *)
Fixpoint pw_run (p : peer) (w : fw) (l : list pw_input) : peer * fw * list rout * option pres :=
  match l with
  | [] => (p, w, [], None)
  | i :: l' =>
    match pw_iter (pi_env i) (pi_wans i) (pi_os i) (pi_rid i) p w with
    | (p', w', o, PNone) => (p', w', o, Some PNone)
    | (p', w', o, r) =>
      match pw_run p' w' l' with (p2, w2, o2, r2) => (p2, w2, o ++ o2, match r2 with None => Some r | _ => r2 end) end
    end
  end.
End Rep.

(** ** Publisher: one iteration of SubscriberSession::poll (pub/session.rs 142-217) with the connection's write half.
    What is in the broadcast channel may be anything in each iteration.  (168, 191, 207: `let _ = poll_close(cx)` when the
    session ends, not modelled: the session is over.) *)
Section Pub.
Variables (buf boundary : N).                      (* session_buffer_size; backpressure_boundary, pub/driver.rs 62, 187 *)
Definition sw_iter (cid : N) (e : senv) (a : wans) (hist : list pmsg) (closed : bool) (s : sess) (w : fw)
  : sess * fw * list qout * sres :=
  let '(w1, r1) := if sn_flush s && s_tick e then fst (fw_flush w (wa_flush a)) else (w, WPending) in  (* 146-150 *)
  let '(w2, r2) := fst (fw_ready boundary w1 (wa_ready a)) in                                   (* 153 *)
  let w3 := match (if is_ready r2 then sn_pending s else None) with Some m => fw_send ps_encode m w2 | None => w2 end in (* 154-158 *)
  match sn_iter buf cid (mkSenv (s_tick e) (is_ok r1) (is_ready r2) true (s_now e) (s_next e)) hist closed s with
  | (s', _, o, r) => (s', w3, o, r)
  end.
Record sw_input := mkSwIn { si_env : senv; si_wans : wans; si_hist : list pmsg; si_closed : bool }.
Fixpoint sw_run (cid : N) (s : sess) (w : fw) (l : list sw_input) : sess * fw * list qout * option sres :=
  match l with
  | [] => (s, w, [], None)
  | i :: l' =>
    match sw_iter cid (si_env i) (si_wans i) (si_hist i) (si_closed i) s w with
    | (s', w', o, (SDone | SCrash) as r) => (s', w', o, Some r)
    | (s', w', o, r) =>
      match sw_run cid s' w' l' with (s2, w2, o2, r2) => (s2, w2, o ++ o2, match r2 with None => Some r | _ => r2 end) end
    end
  end.
End Pub.

(** ** Subscriber: one iteration of PublisherSession::poll (sub/session.rs 107-155) with the connection's write half.
    [sends]: the transport's answers during the successive poll_sends. *)
Section Sub.
(** poll_send, stream.rs 25-43. *)
Definition yw_send (m : ps_msg) (ans : list wr) (w : fw) : fw * sendans :=
  match fst (fw_ready default_boundary w ans) with
  | (w', WReady) => (fw_send ps_encode m w', SaOk)
  | (w', WFail) => (w', SaErr)
  | (w', WPending) => (w', SaBusy)
  end.
(** The loop over the egress queue, session.rs 124-133: the answers it gets. *)
Fixpoint yw_sends (eg : list ps_msg) (ans : list (list wr)) (w : fw) : fw * list sendans :=
  match eg with
  | [] => (w, [])
  | m :: eg' =>
    match yw_send m (hd [] ans) w with
    | (w', SaBusy) => (w', [SaBusy])
    | (w', a) => let (w2, l) := yw_sends eg' (tl ans) w' in (w2, a :: l)
    end
  end.
Definition yw_iter (cid : N) (e : yenv) (flush : list wr) (sends : list (list wr)) (x : sconn) (w : fw)
  : sconn * fw * list uout * sres :=
  let '(w1, r1) := if sc_flush x then fst (fw_flush w flush) else (w, WPending) in              (* stream.rs 67 *)
  let '(w2, l) := match y_next e with
                  | PnEof | PnPending => yw_sends (sc_egress x) sends w1
                  | _ => (w1, [])
                  end in
  match ss_iter cid (mkYenv (is_ready r1) (y_next e) l (y_now e)) x with
  | (x', o, r) => (x', w2, o, r)
  end.
Inductive yw_event :=
| YwIter (e : yenv) (flush : list wr) (sends : list (list wr))
| YwCmd (c : sess_cmd)               (* the driver puts a command into the session's channel *)
| YwRelease.                         (* the driver drops its end of the channel *)
Fixpoint yw_run (cid : N) (x : sconn) (w : fw) (l : list yw_event) : sconn * fw * list uout :=
  match l with
  | [] => (x, w, [])
  | ev :: l' =>
    let '(x1, w1, o1) :=
      match ev with
      | YwIter e fl se => if sc_alive x then match yw_iter cid e fl se x w with (x', w', o, _) => (x', w', o) end else (x, w, [])
      | YwCmd c => (fst (sc_try c x), w, [])
      | YwRelease => (sc_release x, w, [])
      end in
    match yw_run cid x1 w1 l' with (x2, w2, o2) => (x2, w2, o1 ++ o2) end
  end.
End Sub.
