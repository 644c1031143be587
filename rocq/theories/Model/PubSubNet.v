(** A subscriber socket connected to a publisher socket: the driver and sessions of Model/SubDriver.v (with the connection
    tasks and handshake of Model/Handshake.v) and those of Model/PubDriver.v, joined by connections of Model/Net.v.

    The subscriber may also be connected to other publishers and the publisher to other subscribers, about which nothing is
    assumed (their answers are part of the events); several addresses may lead to the publisher.  Every connection attempt
    that reaches the publisher is a new [link]; the publisher may take it from its backlog any time later, or never.  The
    steps of the two sides interleave in any order. *)
From Verif Require Import Model.Base Model.Map Model.Framed Model.WirePubSub Model.WireAuth Model.Compression Model.Handshake
  Model.JoinMap Model.Trie Model.PubDriver Model.SubDriver Model.Net.

Notation plink := (link ps_state ps_msg).
Definition ps_poll := end_poll ps_decode PSIo.

(** What the sessions see of the result of `poll_next` (pub/session.rs 198-213, sub/stream.rs 72-84).  The decoder does not
    panic (Props/P_Wire.v, C04), so the last case does not arise. *)
Definition pn_of (r : polled ps_msg ps_err) : ps_next :=
  match r with PItem m => PnMsg m | PFail _ => PnErr | PEnd => PnEof | PPending => PnPending | PPanic => PnErr end.

Record zsys := mkZ {
  z_c : sb; z_s : pb;
  z_links : list (N * plink);              (* all connections ever made between the two, oldest first *)
  z_backlog : list N;                      (* those the publisher has not accepted yet *)
  z_scids : list (N * N);                  (* the publisher's connection number -> link *)
  z_ccids : list (N * N);                  (* the subscriber's connection number -> link *)
  z_tasks : list (addr * (N * bool));      (* connection tasks that got a connection; do their handshake writes succeed? *)
  z_cevs : list sb_event; z_clog : list uout;     (* ghost: what the subscriber went through and did *)
  z_sevs : list pb_event; z_slog : list qout }.   (* ghost: what the publisher went through and did *)

Definition z_init : zsys := mkZ sb_init pb_init [] [] [] [] [] [] [] [] [].

Inductive zev :=
(* the application with the subscriber *)
| ZApi (f : api) | ZTake | ZDropSub
(* the subscriber's driver: a publisher's turn, a command, a connection attempt that connects (to the publisher), a finished
   connection task *)
| ZEntry (a : addr) (now : N) | ZCommand | ZConnected (a : addr) (send_ok : bool) | ZJoin (k : nat) (r : join_res) (order : list bytes)
(* an iteration of a subscriber's session; [input]: what the transport offers if the connection is one to the publisher (then
   [y_next e] is replaced) *)
| ZSub (cid : N) (e : yenv) (input : list io)
(* the publisher's driver: the listener yields a connection (this one of the subscriber's, or another), accept futures, auth
   tasks; an iteration of a session; the application with the publisher *)
| ZAccept (from : option N) | ZConn (k : nat) (res : option bool) | ZAuth (k : nat) (input : list io) (send_ok : bool)
| ZPub (cid : N) (e : senv) (input : list io)
| ZPublish (topic payload : bytes) | ZTryPublish (topic payload : bytes) | ZClosePub.

(** Links are numbered in the order in which they are made. *)
Definition z_fresh (z : zsys) : N := N.of_nat (length (z_links z)).

Section Sys.
Variables (token : option bytes) (ingress initial : N) (D : decompressors)                    (* the subscriber *)
          (max : option N) (buf min : N) (auth : option (bytes -> bool)) (co : option compressor).   (* the publisher *)

Definition plink0 : plink := link_new PSHeader.
Definition z_set_link (l : N) (k : plink) (z : zsys) : zsys :=
  mkZ (z_c z) (z_s z) (mset l k (z_links z)) (z_backlog z) (z_scids z) (z_ccids z) (z_tasks z) (z_cevs z) (z_clog z) (z_sevs z) (z_slog z).
Definition z_end_task (a : addr) (z : zsys) : zsys :=
  mkZ (z_c z) (z_s z) (z_links z) (z_backlog z) (z_scids z) (z_ccids z) (mdel a (z_tasks z)) (z_cevs z) (z_clog z) (z_sevs z) (z_slog z).

(** The link of a connection, if there is one. *)
Definition z_link_of (cid : N) (cids : list (N * N)) (z : zsys) : option (N * plink) :=
  match mget cid cids with
  | Some l => match mget l (z_links z) with Some k => Some (l, k) | None => None end
  | None => None
  end.

(** Where an effect of the subscriber and of the publisher goes. *)
Definition on_link (cids : list (N * N)) (links : list (N * plink)) (cid : N) (f : plink -> plink) : list (N * plink) :=
  match mget cid cids with
  | Some l => match mget l links with Some k => mset l (f k) links | None => links end
  | None => links
  end.
Definition c_route (cids : list (N * N)) (links : list (N * plink)) (x : uout) : list (N * plink) :=
  match x with
  | UWire cid m true => on_link cids links cid (link_c_send ps_encode [m])
  | _ => links
  end.
Definition s_route (cids : list (N * N)) (links : list (N * plink)) (x : qout) : list (N * plink) :=
  match x with
  | QHanded cid m true => on_link cids links cid (link_s_send ps_encode [m])
  | QAuthReply cid w => on_link cids links cid (link_s_greet w)
  | QOpen cid => on_link cids links cid (fun k => mkLink (lk_c k) (end_on (lk_s k)))
  | _ => links
  end.

(** ** The subscriber *)
Definition z_sub (ev : sb_event) (z : zsys) : zsys :=
  let (c', os) := sb_act token ingress initial D (z_c z) ev in
  mkZ c' (z_s z) (fold_left (c_route (z_ccids z)) os (z_links z)) (z_backlog z) (z_scids z) (z_ccids z) (z_tasks z)
      (z_cevs z ++ [ev]) (z_clog z ++ os) (z_sevs z) (z_slog z).

(** What the subscriber writes at the start of the handshake (sub/driver.rs 241-252; Model/Handshake.v auth_client). *)
Definition z_hello (send_ok : bool) : bytes :=
  match token with
  | Some t => if send_ok then fst (au_encode au_client (AuthM t)) else []
  | None => []
  end.
(** transport.connect() of a connection task returned a connection to the publisher (sub/driver.rs 233-239). *)
Definition z_connected (a : addr) (send_ok : bool) (z : zsys) : zsys :=
  if smem a (jm_tasks (sb_tasks (z_c z))) then
    match mget a (z_tasks z) with
    | Some _ => z
    | None =>
      let l := z_fresh z in
      mkZ (z_c z) (z_s z) (mset l (link_c_greet (z_hello send_ok) plink0) (z_links z)) (z_backlog z ++ [l]) (z_scids z) (z_ccids z)
          (mset a (l, send_ok) (z_tasks z)) (z_cevs z) (z_clog z) (z_sevs z) (z_slog z)
    end
  else z.

(** A connection task ends (sub/driver.rs 74-86, 241-288).  If it got a connection to the publisher, it ends with what its
    handshake on this connection gives.  An unfinished handshake is replayed from its start at the next poll. *)
Definition z_join (k : nat) (r : join_res) (order : list bytes) (z : zsys) : zsys :=
  match nth_error (jm_tasks (sb_tasks (z_c z))) k with
  | None => z
  | Some a =>
    match mget a (z_tasks z) with
    | None => z_sub (YJoin k r order) z
    | Some (l, ok) =>
      match mget l (z_links z), r with
      | Some lk, JConn _ input =>
        if pipe_offers input (en_in (lk_c lk)) then
          match auth_client token ok input with
          | (ClRunning, _, _) => z
          | (ClOk, _, rest) =>
            let cid := sb_next (z_c z) in
            let z1 := z_end_task a (z_sub (YJoin k (JConn ok input) order) z) in
            if cid =? sb_next (z_c z1) then z1                (* there is a connection already: this one is dropped *)
            else mkZ (z_c z1) (z_s z1) (mset l (mkLink (end_on (end_hs input rest (lk_c lk))) (lk_s lk)) (z_links z1)) (z_backlog z1)
                     (z_scids z1) (mset cid l (z_ccids z1)) (z_tasks z1) (z_cevs z1) (z_clog z1) (z_sevs z1) (z_slog z1)
          | (_, _, _) => z_end_task a (z_sub (YJoin k (JConn ok input) order) z)
          end
        else z
      | _, _ => z
      end
    end
  end.

(** An iteration of a session with the real answers of its connection (sub/session.rs 106-155; poll_next is always called). *)
Definition y_with_next (e : yenv) (n : ps_next) : yenv := mkYenv (y_flush e) n (y_sends e) (y_now e).
Definition z_subsess (cid : N) (e : yenv) (input : list io) (z : zsys) : zsys :=
  match mget cid (sb_conns (z_c z)) with
  | None => z
  | Some x =>
    if sc_alive x then
      match z_link_of cid (z_ccids z) z with
      | None => z_sub (YSess cid e) z
      | Some (l, k) =>
        if pipe_offers input (en_in (lk_c k)) then
          let (r, c) := ps_poll input (lk_c k) in
          z_sub (YSess cid (y_with_next e (pn_of r))) (z_set_link l (mkLink c (lk_s k)) z)
        else z
      end
    else z
  end.

(** ** The publisher *)
Definition z_pub (ev : pb_event) (z : zsys) : zsys :=
  let (s', os) := pb_act max buf min auth co (z_s z) ev in
  mkZ (z_c z) s' (fold_left (s_route (z_scids z)) os (z_links z)) (z_backlog z) (z_scids z) (z_ccids z) (z_tasks z)
      (z_cevs z) (z_clog z) (z_sevs z ++ [ev]) (z_slog z ++ os).

(** The listener yields a connection (pub/driver.rs 113-128): one of the backlog, or one of somebody else. *)
Definition z_accept (from : option N) (z : zsys) : zsys :=
  match from with
  | None => z_pub WAccept z
  | Some l =>
    if smem l (z_backlog z) then
      let cid := pb_next_cid (z_s z) in
      let z1 := z_pub WAccept z in
      mkZ (z_c z1) (z_s z1) (z_links z1) (sdel l (z_backlog z1))
          (if cid =? pb_next_cid (z_s z1) then z_scids z1 (* refused *) else mset cid l (z_scids z1))
          (z_ccids z1) (z_tasks z1) (z_cevs z1) (z_clog z1) (z_sevs z1) (z_slog z1)
    else z
  end.

(** The auth task of a connection ends (pub/driver.rs 55-87, 142-187). *)
Definition z_auth (k : nat) (input : list io) (send_ok : bool) (z : zsys) : zsys :=
  match nth_error (pb_auths (z_s z)) k, auth with
  | Some cid, Some a =>
    match z_link_of cid (z_scids z) z with
    | None => z_pub (WAuth k input send_ok) z
    | Some (l, lk) =>
      if pipe_offers input (en_in (lk_s lk)) then
        match auth_server a send_ok input with
        | (AuthRunning, _, _) => z_pub (WAuth k input send_ok) z
        | (_, _, rest) => z_pub (WAuth k input send_ok) (z_set_link l (mkLink (lk_c lk) (end_hs input rest (lk_s lk))) z)
        end
      else z
    end
  | _, _ => z
  end.

(** Does this iteration of the session get to poll_next on its connection?  (pub/session.rs 153-198) *)
Definition s_with_next (e : senv) (n : ps_next) : senv := mkSenv (s_tick e) (s_flush_ok e) (s_ready e) (s_send e) (s_now e) n.
Definition s_wants_next (e : senv) (s : pb) (x : sess) : bool :=
  s_ready e && match sn_pending x with Some _ => false | None => true end &&
  match bcast_recv (bcast_cap buf) (sn_pos x) (blen (pb_hist s)) (pb_closed s) with BEmpty => true | _ => false end.
Definition z_pubsess (cid : N) (e : senv) (input : list io) (z : zsys) : zsys :=
  match mget cid (pb_sess (z_s z)) with
  | None => z
  | Some x =>
    match z_link_of cid (z_scids z) z with
    | None => z_pub (WSession cid e) z
    | Some (l, lk) =>
      if s_wants_next e (z_s z) x then
        if pipe_offers input (en_in (lk_s lk)) then
          let (r, a) := ps_poll input (lk_s lk) in
          z_pub (WSession cid (s_with_next e (pn_of r))) (z_set_link l (mkLink (lk_c lk) a) z)
        else z
      else z_pub (WSession cid (s_with_next e PnPending)) z
    end
  end.

Definition z_step (z : zsys) (ev : zev) : zsys :=
  match ev with
  | ZApi f => z_sub (YApi f) z
  | ZTake => z_sub YTake z
  | ZDropSub => z_sub YDrop z
  | ZEntry a now => z_sub (YEntry a now) z
  | ZCommand => z_sub YCommand z
  | ZConnected a ok => z_connected a ok z
  | ZJoin k r order => z_join k r order z
  | ZSub cid e i => z_subsess cid e i z
  | ZAccept from => z_accept from z
  | ZConn k r => z_pub (WConn k r) z
  | ZAuth k i b => z_auth k i b z
  | ZPub cid e i => z_pubsess cid e i z
  | ZPublish t p => z_pub (WPublish t p) z
  | ZTryPublish t p => z_pub (WTryPublish t p) z
  | ZClosePub => z_pub WClose z
  end.
Definition z_run (evs : list zev) : zsys := fold_left z_step evs z_init.
End Sys.
