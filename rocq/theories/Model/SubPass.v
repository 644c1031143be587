(** The loops of the subscriber driver over its publishers as they are written: first every publisher is looked at, and what is to be done
    about it is only noted; then the noted actions are carried out, one kind after the other.  Model/SubDriver.v does each publisher's action
    at once; C96 shows that it makes no difference. *)
From Verif Require Import Model.Base Model.Map Model.Framed Model.WirePubSub Model.WireAuth Model.Compression Model.Backoff Model.JoinMap Model.SubDriver.

Section Pass.
Variables (token : option bytes) (ingress initial : N) (D : decompressors).

(** What the loop has noted: driver.rs 337-338 to_retry, 336 inactive, 338 to_terminate. *)
Record noted := mkNoted { to_retry : list addr; inactive : list addr; to_terminate : list addr }.

(** The body of the loop of poll_publishers, driver.rs 341-396, for one publisher: [true] = progress. *)
Definition sp_look (a : addr) (now : N) (s : sb) : sb * list uout * bool * noted :=
  match mget a (sb_pubs s) with
  | None => (s, [], false, mkNoted [] [] [])
  | Some (PActive cid) =>
    match mget cid (sb_conns s) with
    | None => (s, [], false, mkNoted [] [] [])
    | Some x =>
      match sc_in x with
      | m :: rest =>
        let s1 := sb_set_conns s (mset cid (sc_set_in x rest) (sb_conns s)) in
        match try_decompress D (tm_ctype m) (tm_payload m) with
        | None => (s1, [UUndecodable cid m], false, mkNoted [] [] [])                          (* 346-352 *)
        | Some p => let (s2, o) := sb_pass ingress cid a m p s1 in (s2, o, true, mkNoted [] [] [])   (* 354-366 *)
        end
      | [] => if sc_alive x then (s, [], false, mkNoted [] [] [])                              (* 373 *)
              else (s, [], true, mkNoted [] [a] [])                                            (* 368-372 *)
      end
    end
  | Some (PInactive b) =>
    match bo_poll now b with
    | (b', BYield _) =>                                                                        (* 378-388 *)
      (sb_set_pubs s (mset a (PInactive b') (sb_pubs s)), [], true,
       if jm_contains a (sb_tasks s) then mkNoted [] [] [] else mkNoted [a] [] [])
    | (b', BEnd) => (sb_set_pubs s (mset a (PInactive b') (sb_pubs s)), [], false, mkNoted [] [] [a])   (* 389-392 *)
    | (b', BPending) => (sb_set_pubs s (mset a (PInactive b') (sb_pubs s)), [], false, mkNoted [] [] [])
    | (_, BPanic) => (s, [], false, mkNoted [] [] [])   (* simplification as in [sb_entry] *)
    end
  end.

(** The loop, driver.rs 341-396. *)
Fixpoint sp_looks (l : list addr) (now : N) (s : sb) : sb * list uout * bool * noted :=
  match l with
  | [] => (s, [], false, mkNoted [] [] [])
  | a :: l' =>
    let '(s1, o1, p1, n1) := sp_look a now s in
    let '(s2, o2, p2, n2) := sp_looks l' now s1 in
    (s2, o1 ++ o2, p1 || p2,
     mkNoted (to_retry n1 ++ to_retry n2) (inactive n1 ++ inactive n2) (to_terminate n1 ++ to_terminate n2))
  end.

(** driver.rs 398-401 *)
Fixpoint sp_connects (l : list addr) (s : sb) : sb * list uout :=
  match l with
  | [] => (s, [])
  | a :: l' => let (s1, o1) := sb_connect a s in let (s2, o2) := sp_connects l' s1 in (s2, o1 ++ o2)
  end.
(** driver.rs 403-406; also 144-148 and 178-182 *)
Fixpoint sp_resets (l : list addr) (s : sb) : sb * list uout :=
  match l with
  | [] => (s, [])
  | a :: l' => let (s1, o1) := sb_reset initial a s in let (s2, o2) := sp_resets l' s1 in (s2, o1 ++ o2)
  end.
(** driver.rs 408-411 *)
Fixpoint sp_removes (l : list addr) (s : sb) : sb * list uout :=
  match l with
  | [] => (s, [])
  | a :: l' => let (s2, o2) := sp_removes l' (sb_set_pubs s (mdel a (sb_pubs s))) in (s2, UGaveUp a :: o2)
  end.

(** poll_publishers, driver.rs 335-417. *)
Definition sp_pass (l : list addr) (now : N) (s : sb) : sb * list uout * bool :=
  let '(s1, o1, p, n) := sp_looks l now s in
  let (s2, o2) := sp_connects (to_retry n) s1 in
  let (s3, o3) := sp_resets (inactive n) s2 in
  let (s4, o4) := sp_removes (to_terminate n) s3 in
  (s4, o1 ++ o2 ++ o3 ++ o4, p).

(** The loops of subscribe and unsubscribe, driver.rs 132-142, 166-176: the publishers to reset. *)
Fixpoint sp_tries (c : sess_cmd) (l : list (addr * pstate)) (s : sb) : sb * list uout * list addr :=
  match l with
  | [] => (s, [], [])
  | (a, PActive cid) :: l' =>
    match mget cid (sb_conns s) with
    | Some x =>
      let (x', r) := sc_try c x in
      let '(s2, o2, n2) := sp_tries c l' (sb_set_conns s (mset cid x' (sb_conns s))) in
      (s2, UTry cid c r :: o2, match r with TClosed => a :: n2 | _ => n2 end)
    | None => sp_tries c l' s
    end
  | (_, PInactive _) :: l' => sp_tries c l' s
  end.
Definition sp_tell (c : sess_cmd) (l : list (addr * pstate)) (s : sb) : sb * list uout :=
  let '(s1, o1, n) := sp_tries c l s in let (s2, o2) := sp_resets n s1 in (s2, o1 ++ o2).

(** on_command, driver.rs 192-226, with subscribe 125-157 and unsubscribe 160-190. *)
Definition sp_command (c : scommand) (s : sb) : sb * list uout :=
  match c with
  | CSub t =>
    if smem t (sb_topics s) then (s, [])
    else let s1 := sb_set_topics s (sins t (sb_topics s)) in sp_tell (SSub t) (sb_pubs s1) s1
  | CUnsub t =>
    if smem t (sb_topics s) then let s1 := sb_set_topics s (sdel t (sb_topics s)) in sp_tell (SUnsub t) (sb_pubs s1) s1
    else (s, [])
  | _ => sb_command initial c s
  end.
Definition sp_next_command (s : sb) : sb * list uout * bool :=
  match sb_cmdq s with
  | [] => (s, [], false)
  | c :: q => let (s1, o) := sp_command c (sb_set_cmdq s q) in (s1, UCmd c :: o, true)
  end.

(** SubDriver::poll, driver.rs 58-89. *)
Definition sp_iter (d : ydenv) (s : sb) : sb * list uout * bool :=
  let '(s1, o1, p) := sp_pass (arrange (yd_order d) (mkeys (sb_pubs s))) (yd_now d) s in
  if p then (s1, o1, true) else
  let '(s2, o2, c) := sp_next_command s1 in
  if c then (s2, o1 ++ o2, true) else
  let '(s3, o3, j) := match yd_join d with Some (k, r, order) => sb_join token k r order s2 | None => (s2, [], false) end in
  (s3, o1 ++ o2 ++ o3, j).
Fixpoint sp_poll (ds : list ydenv) (s : sb) : sb * list uout * bool :=
  match ds with
  | [] => (s, [], false)
  | d :: ds' =>
    match sp_iter d s with
    | (s1, o1, true) => let '(s2, o2, r) := sp_poll ds' s1 in (s2, o1 ++ o2, r)
    | (s1, o1, false) => (s1, o1, true)
    end
  end.

(** The same with tokio's cooperative budget, or with tasks on other threads that are slower: when the budget is used up, channels and timers
    say Poll::Pending though there is something (and the task is woken again).  [sk_pubs]: the publishers whose channel or timer says so;
    [sk_cmd]: the command channel does.  (A timer that is looked at for the first time is armed all the same; here that happens at the next
    look.  It makes no difference unless the initial back-off is 0.) *)
Record spurious := mkSpurious { sk_pubs : list addr; sk_cmd : bool }.
Definition sp_iter_b (d : ydenv * spurious) (s : sb) : sb * list uout * bool :=
  let (d, sk) := d in
  let '(s1, o1, p) := sp_pass (filter (fun a => negb (smem a (sk_pubs sk))) (arrange (yd_order d) (mkeys (sb_pubs s)))) (yd_now d) s in
  if p then (s1, o1, true) else
  let '(s2, o2, c) := if sk_cmd sk then (s1, [], false) else sp_next_command s1 in
  if c then (s2, o1 ++ o2, true) else
  let '(s3, o3, j) := match yd_join d with Some (k, r, order) => sb_join token k r order s2 | None => (s2, [], false) end in
  (s3, o1 ++ o2 ++ o3, j).
Fixpoint sp_poll_b (ds : list (ydenv * spurious)) (s : sb) : sb * list uout * bool :=
  match ds with
  | [] => (s, [], false)
  | d :: ds' =>
    match sp_iter_b d s with
    | (s1, o1, true) => let '(s2, o2, r) := sp_poll_b ds' s1 in (s2, o1 ++ o2, r)
    | (s1, o1, false) => (s1, o1, true)
    end
  end.
End Pass.

(** Histories of the driver as written: its polls in between the other events. *)
Inductive sp_event := SpPoll (ds : list (ydenv * spurious)) | SpOther (ev : sb_event).
Definition sp_act (token : option bytes) (ingress initial : N) (D : decompressors) (s : sb) (e : sp_event) : sb * list uout :=
  match e with
  | SpPoll ds => let '(s', o, _) := sp_poll_b token ingress initial D ds s in (s', o)
  | SpOther ev => sb_act token ingress initial D s ev
  end.
Fixpoint sp_run (token : option bytes) (ingress initial : N) (D : decompressors) (s : sb) (evs : list sp_event) : sb * list uout :=
  match evs with
  | [] => (s, [])
  | e :: evs' => let (s1, o1) := sp_act token ingress initial D s e in
                 let (s2, o2) := sp_run token ingress initial D s1 evs' in (s2, o1 ++ o2)
  end.
