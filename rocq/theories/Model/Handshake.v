(** The authentication handshakes run on a fresh connection.

    Server: rep/driver.rs 199-233 and pub/driver.rs (on_incoming), the spawned auth task.
    Client: req/driver.rs 101-129 and sub/driver.rs 241-285, inside the connection task.
    The transport is the list of answers it gives to reads ([io], Model/Framed.v) plus, for writes, one flag per
    handshake telling whether `send`/`flush`/`close` succeed. *)
From Verif Require Import Model.Base Model.Framed Model.WireAuth.

(** `conn.next().await`: poll_next is called until it is ready; [PPending] in the result means that the transport has
    given no further answer, so the task is still waiting.  Polls are repeated at most as often as there are answers. *)
Fixpoint au_next (n : nat) (f : framed au_state) (input : list io) : polled au_msg au_err * framed au_state * list io :=
  match framed_poll au_decode AUIo f input with
  | (PPending, f', (_ :: _) as rest) =>
    match n with
    | O => (PPending, f', rest)
    | S n' => au_next n' f' rest
    end
  | r => r
  end.

(** What became of the server's auth task. *)
Inductive auth_res :=
| AuthOk (id : bytes)     (* Ok(AuthResult { id, .. }) *)
| AuthErr                 (* Err(RepError) / Err(PubError) *)
| AuthPanic               (* the task panicked: a JoinError for poll_join_next *)
| AuthRunning.            (* still waiting for the client *)

(** rep/driver.rs 199-233 (pub/driver.rs on_incoming, the same code).  [send_ok]: the writes of the handshake succeed.
    Result: outcome, bytes written to the client, remaining transport answers (the connection that `into_inner()` gives
    back).  The read buffer of the handshake's Framed is discarded by `into_inner()`. *)
Definition auth_server (authenticate : bytes -> bool) (send_ok : bool) (input : list io) : auth_res * bytes * list io :=
  match au_next (length input) (framed_new au_server) input with
  | (PItem m, f, rest) =>
    let reply x := if send_ok then fst (au_encode (fr_codec f) x) else [] in
    match m with
    | AuthM id =>
      if authenticate id then
        if send_ok then (AuthOk id, reply AckM, rest)           (* 229-232 *)
        else (AuthErr, [], rest)                                (* `?` on a failed write *)
      else (AuthErr, reply RejectM, rest)                       (* 221-226 *)
    | _ => (AuthErr, reply RejectM, rest)                       (* 213-218 *)
    end
  | (PFail _, _, rest) => (AuthErr, [], rest)                   (* 209 *)
  | (PEnd, _, rest) => (AuthErr, [], rest)                      (* 208 *)
  | (PPanic, _, rest) => (AuthPanic, [], rest)
  | (PPending, _, rest) => (AuthRunning, [], rest)
  end.

(** What became of the client's connection task after the transport connected. *)
Inductive cl_res := ClOk | ClErr | ClPanic | ClRunning.

(** req/driver.rs 102-133 and sub/driver.rs 241-288.  [token = None]: no handshake.  Result: outcome, bytes written,
    remaining transport answers.  In both sockets the handshake's Framed (with its read buffer) is dropped. *)
Definition auth_client (token : option bytes) (send_ok : bool) (input : list io) : cl_res * bytes * list io :=
  match token with
  | None => (ClOk, [], input)
  | Some t =>
    let (b, st) := au_encode au_client (AuthM t) in
    if send_ok then
      match au_next (length input) (framed_new st) input with
      | (PItem AckM, _, rest) => (ClOk, b, rest)
      | (PItem _, _, rest) => (ClErr, b, rest)
      | (PFail _, _, rest) => (ClErr, b, rest)
      | (PEnd, _, rest) => (ClErr, b, rest)
      | (PPanic, _, rest) => (ClPanic, b, rest)
      | (PPending, _, rest) => (ClRunning, b, rest)
      end
    else (ClErr, [], input)
  end.

(** How far the connection task of a request socket (req/driver.rs 86-134) is: the transport is still connecting; could not
    connect; connected, and then the handshake (if a token is set) with the given answers of the connection. *)
Inductive conn_progress := CpConnecting | CpFailed | CpConn (send_ok : bool) (input : list io).
(** What polling it gives: None = Pending, Some true = Ready(Ok(io)), Some false = Ready(Err).  (A panic of the task would
    be a panic of the driver; Proofs/T_Auth.v shows that the handshake does not panic.) *)
Definition req_task (token : option bytes) (p : conn_progress) : option bool :=
  match p with
  | CpConnecting => None
  | CpFailed => Some false
  | CpConn ok input =>
    match auth_client token ok input with
    | (ClOk, _, _) => Some true
    | (ClErr, _, _) => Some false
    | (ClPanic, _, _) | (ClRunning, _, _) => None
    end
  end.
