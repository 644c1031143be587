(** A request socket connected to a reply socket: the driver of Model/ReqDriver.v (with the connection task and handshake of
    Model/Handshake.v) and the driver of Model/RepDriver.v, joined by connections of Model/Net.v.

    The reply socket may have any number of other connections, about which nothing is assumed (their answers are part of the
    events).  Every connection attempt of the request socket that reaches the server is a new [link]; the server may take
    it from its backlog any time later, or never.  The steps of the two sides interleave in any order. *)
From Verif Require Import Model.Base Model.Map Model.Framed Model.WireReqRep Model.WireAuth Model.Compression Model.Handshake
  Model.ReqDriver Model.RepDriver Model.Net.

Notation rlink := (link rr_state rr_msg).
Definition rr_poll := end_poll rr_decode RRIo.

(** What the drivers see of the result of `poll_next` (req/driver.rs 317-337, rep/driver.rs 323-347).  The decoder does not
    panic (Props/P_Wire.v, C04), so the last case does not arise. *)
Definition next_of (r : polled rr_msg rr_err) : next_ans :=
  match r with PItem m => NxMsg m | PFail _ => NxErr | PEnd => NxEof | PPending => NxPending | PPanic => NxErr end.

Record sys := mkSys {
  sy_c : rd; sy_s : rp;
  sy_links : list (N * rlink);          (* all connections ever made between the two, oldest first *)
  sy_backlog : list N;                  (* those the server has not accepted yet *)
  sy_cids : list (N * N);               (* the server's connection number -> link *)
  sy_cur : option N;                    (* the request socket's active connection *)
  sy_task : option (N * bool);          (* the connection task got a connection; do its handshake writes succeed? *)
  sy_cevs : list req_event; sy_clog : list out;     (* ghost: what the request socket went through and did *)
  sy_sevs : list rp_event; sy_slog : list rout }.   (* ghost: what the reply socket went through and did *)

Definition sy_init : sys := mkSys rd_init rp_init [] [] [] None None [] [] [] [].

Inductive yev :=
| YReq (call : N) (payload : bytes)      (* the client application calls request(payload) *)
| YDropReq                               (* it drops the ReqSocket *)
| YConnected (send_ok : bool)            (* transport.connect() of the attempt in flight succeeds *)
| YClient (e : env) (fails : bool) (task_io next_io : list io)
                                         (* an iteration of the request driver's loop.  [fails]: the attempt in flight fails
                                            (if it did not connect yet); [task_io], [next_io]: what the transport offers
                                            to the handshake and to poll_next; the corresponding answers in [e] are
                                            replaced *)
| YAccept (from : option N)              (* the server's listener yields a connection: this one of the client's, or another *)
| YConn (k : nat) (res : option (option N))
| YAuth (k : nat) (input : list io) (send_ok : bool)
| YPeer (addr : N) (e : penv) (input : list io)
                                         (* an iteration of the peer at [addr]; [input]: what the transport offers if the
                                            peer is a connection of the client (then [p_next e] is replaced) *)
| YRecv | YRespond (rid : N) (x : bytes) | YDiscard (rid : N) | YDropRep.   (* the server application *)

(** The connection counter: links are numbered in the order in which they are made. *)
Definition sy_fresh (y : sys) : N := N.of_nat (length (sy_links y)).

Section Sys.
Variables (o : ropts) (token : option bytes) (cco : option compressor)          (* the request socket *)
          (max : option N) (min : N) (auth : option (bytes -> bool)) (sco : option compressor)   (* the reply socket *)
          (D : decompressors).

Definition link0 : rlink := link_new RRHeader.
Definition set_link (l : N) (k : rlink) (y : sys) : sys :=
  mkSys (sy_c y) (sy_s y) (mset l k (sy_links y)) (sy_backlog y) (sy_cids y) (sy_cur y) (sy_task y)
        (sy_cevs y) (sy_clog y) (sy_sevs y) (sy_slog y).

(** ** The request socket *)
Definition with_task (e : env) (t : option bool) : env :=
  mkEnv (e_now e) (e_flush_tick e) (e_flush_ok e) t (e_next e) (e_ready e) (e_send e) (e_ticks e) (e_recv e) (e_close e).
Definition with_next (e : env) (n : next_ans) : env :=
  mkEnv (e_now e) (e_flush_tick e) (e_flush_ok e) (e_task e) n (e_ready e) (e_send e) (e_ticks e) (e_recv e) (e_close e).

(** What the client writes at the start of the handshake (Model/Handshake.v auth_client; req/driver.rs 102-110). *)
Definition hello (send_ok : bool) : bytes :=
  match token with
  | Some t => if send_ok then fst (au_encode au_client (AuthM t)) else []
  | None => []
  end.

(** transport.connect() returned a connection (req/driver.rs 86-100, 296-304); the handshake starts. *)
Definition y_connected (send_ok : bool) (y : sys) : sys :=
  if negb (rd_done (sy_c y)) && rd_task (sy_c y) then
    match sy_task y with
    | Some _ => y
    | None =>
      let l := sy_fresh y in
      mkSys (sy_c y) (sy_s y) (mset l (link_c_greet (hello send_ok) link0) (sy_links y)) (sy_backlog y ++ [l]) (sy_cids y)
            (sy_cur y) (Some (l, send_ok)) (sy_cevs y) (sy_clog y) (sy_sevs y) (sy_slog y)
    end
  else y.

(** Polling the connection task (req/driver.rs 271-284, 101-133): its answer, and the links.  [None]: the transport cannot
    offer these reads.  When the task ends, the connection is as its handshake left it; before, nothing counts as read (an
    unfinished handshake is replayed from its start at the next poll). *)
Definition y_task (fails : bool) (input : list io) (y : sys) : option (option bool * list (N * rlink)) :=
  if rd_task (sy_c y) then
    match sy_task y with
    | None => Some (if fails then Some false else None, sy_links y)
    | Some (l, ok) =>
      match mget l (sy_links y) with
      | None => None
      | Some k =>
        if pipe_offers input (en_in (lk_c k)) then
          let rest := snd (auth_client token ok input) in
          match req_task token (CpConn ok input) with
          | None => Some (None, sy_links y)
          | Some true => Some (Some true, mset l (mkLink (end_on (end_hs input rest (lk_c k))) (lk_s k)) (sy_links y))
          | Some false => Some (Some false, sy_links y)
          end
        else None
      end
    end
  else Some (None, sy_links y).

(** poll_next on the active connection (req/driver.rs 317). *)
Definition y_next (cur : option N) (input : list io) (links : list (N * rlink)) : option (next_ans * list (N * rlink)) :=
  match cur with
  | None => Some (NxPending, links)
  | Some l =>
    match mget l links with
    | None => None
    | Some k =>
      if pipe_offers input (en_in (lk_c k)) then
        let (r, c) := rr_poll input (lk_c k) in Some (next_of r, mset l (mkLink c (lk_s k)) links)
      else None
    end
  end.

Definition sent_frames (os : list out) : list rr_msg := flat_map (fun x => match x with Handed m true => [m] | _ => [] end) os.
Definition y_send (cur : option N) (ms : list rr_msg) (links : list (N * rlink)) : list (N * rlink) :=
  match cur with
  | None => links
  | Some l => match mget l links with Some k => mset l (link_c_send rr_encode ms k) links | None => links end
  end.

(** One iteration of the request driver's loop (req/driver.rs 260-389) with the real answers of its connection. *)
Definition y_client (e : env) (fails : bool) (tio nio : list io) (y : sys) : sys :=
  let c := sy_c y in
  if rd_done c then y else
  match y_task fails tio y with
  | None => y
  | Some (tk, links1) =>
    let e1 := with_task e tk in
    let s2 := fst (rd_do_task e1 (rd_do_flush o e1 c)) in
    let cur := match tk with Some true => option_map fst (sy_task y) | _ => sy_cur y end in
    match (match rd_conn s2 with RActive => y_next cur nio links1 | RInactive _ => Some (NxPending, links1) end) with
    | None => y
    | Some (nx, links2) =>
      let ev := EIter (with_next e1 nx) in
      let (c', os) := rd_step o cco D c ev in
      mkSys c' (sy_s y) (y_send cur (sent_frames os) links2) (sy_backlog y) (sy_cids y)
            (match rd_conn c' with RActive => cur | RInactive _ => None end)
            (match tk with Some _ => None | None => sy_task y end)
            (sy_cevs y ++ [ev]) (sy_clog y ++ os) (sy_sevs y) (sy_slog y)
    end
  end.

(** A call of the client application. *)
Definition y_call (ev : req_event) (y : sys) : sys :=
  let (c', os) := rd_step o cco D (sy_c y) ev in
  mkSys c' (sy_s y) (sy_links y) (sy_backlog y) (sy_cids y) (sy_cur y) (sy_task y)
        (sy_cevs y ++ [ev]) (sy_clog y ++ os) (sy_sevs y) (sy_slog y).

(** ** The reply socket *)
(** Where an effect of the reply driver goes. *)
Definition route (cids : list (N * N)) (links : list (N * rlink)) (x : rout) : list (N * rlink) :=
  let on cid f :=
    match mget cid cids with
    | Some l => match mget l links with Some k => mset l (f k) links | None => links end
    | None => links
    end in
  match x with
  | RHanded cid m true => on cid (link_s_send rr_encode [m])
  | RAuthReply cid w => on cid (link_s_greet w)
  | ROpen cid _ => on cid (fun k => mkLink (lk_c k) (end_on (lk_s k)))
  | _ => links
  end.
Definition y_serve (ev : rp_event) (y : sys) : sys :=
  let (s', os) := rp_act max min auth sco D (sy_s y) ev in
  mkSys (sy_c y) s' (fold_left (route (sy_cids y)) os (sy_links y)) (sy_backlog y) (sy_cids y) (sy_cur y) (sy_task y)
        (sy_cevs y) (sy_clog y) (sy_sevs y ++ [ev]) (sy_slog y ++ os).

(** The listener yields a connection (rep/driver.rs 157-176): one of the backlog, or one of somebody else. *)
Definition y_accept (from : option N) (y : sys) : sys :=
  match from with
  | None => y_serve VAccept y
  | Some l =>
    if smem l (sy_backlog y) then
      let cid := rp_next_cid (sy_s y) in
      let y1 := y_serve VAccept y in
      mkSys (sy_c y1) (sy_s y1) (sy_links y1) (sdel l (sy_backlog y1))
            (if cid =? rp_next_cid (sy_s y1) then sy_cids y1 (* refused *) else mset cid l (sy_cids y1))
            (sy_cur y1) (sy_task y1) (sy_cevs y1) (sy_clog y1) (sy_sevs y1) (sy_slog y1)
    else y
  end.

(** The link of a connection of the server, if it is with the request socket. *)
Definition link_of (cid : N) (y : sys) : option (N * rlink) :=
  match mget cid (sy_cids y) with
  | Some l => match mget l (sy_links y) with Some k => Some (l, k) | None => None end
  | None => None
  end.

(** The auth task of a connection ends (rep/driver.rs 107-133, 199-233). *)
Definition y_auth (k : nat) (input : list io) (send_ok : bool) (y : sys) : sys :=
  match nth_error (rp_auths (sy_s y)) k, auth with
  | Some (cid, _), Some a =>
    match link_of cid y with
    | None => y_serve (VAuth k input send_ok) y
    | Some (l, lk) =>
      if pipe_offers input (en_in (lk_s lk)) then
        match auth_server a send_ok input with
        | (AuthRunning, _, _) => y_serve (VAuth k input send_ok) y
        | (_, _, rest) => y_serve (VAuth k input send_ok) (set_link l (mkLink (lk_c lk) (end_hs input rest (lk_s lk))) y)
        end
      else y
    end
  | _, _ => y
  end.

(** Does this iteration of the peer get to poll_next on its connection?  (rep/driver.rs 323) *)
Definition with_pnext (e : penv) (n : next_ans) : penv := mkPenv (p_flush_ok e) (p_ready e) (p_send e) (p_pref e) n.
Definition wants_next (e : penv) (s : rp) (p : peer) : bool :=
  match peer_iter min sco (with_pnext e NxPending) (rp_os s) (rp_next_rid s) p (rp_tx s) (rp_failed s) with
  | (_, _, _, _, PPend) => true
  | _ => false
  end.
Definition y_peer (addr : N) (e : penv) (input : list io) (y : sys) : sys :=
  match mget addr (rp_peers (sy_s y)) with
  | None => y
  | Some p =>
    match link_of (pr_cid p) y with
    | None => y_serve (VPeer addr e) y
    | Some (l, lk) =>
      if pr_open p && wants_next e (sy_s y) p then
        if pipe_offers input (en_in (lk_s lk)) then
          let (r, a) := rr_poll input (lk_s lk) in
          y_serve (VPeer addr (with_pnext e (next_of r))) (set_link l (mkLink (lk_c lk) a) y)
        else y
      else y_serve (VPeer addr (with_pnext e NxPending)) y
    end
  end.

Definition y_step (y : sys) (ev : yev) : sys :=
  match ev with
  | YReq c p => y_call (EReq c p) y
  | YDropReq => y_call EDrop y
  | YConnected ok => y_connected ok y
  | YClient e f tio nio => y_client e f tio nio y
  | YAccept from => y_accept from y
  | YConn k r => y_serve (VConn k r) y
  | YAuth k i b => y_auth k i b y
  | YPeer a e i => y_peer a e i y
  | YRecv => y_serve VRecv y
  | YRespond r x => y_serve (VRespond r x) y
  | YDiscard r => y_serve (VDiscard r) y
  | YDropRep => y_serve VDropSocket y
  end.
Definition y_run (evs : list yev) : sys := fold_left y_step evs sy_init.
End Sys.
