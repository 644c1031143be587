(** Vocabulary for C84 at a reply socket: a history as one client sees it.
    Requests have numbers that are unique in the whole socket; seen from one client, its requests are just the first, the second, ... *)
From Coq Require Import List NArith Bool.
From Verif Require Import Model.Base Model.Map Model.WireReqRep Model.Compression Model.Framed Model.WireAuth Model.ReqDriver Model.RepDriver.
Import ListNotations.
Open Scope N_scope.

(** The numbers of the requests that came in on connection [c], in order. *)
Definition requests_of (c : N) (l : list rout) : list N :=
  flat_map (fun x => match x with RIncoming k _ r _ => if k =? c then [r] else [] | _ => [] end) l.
(** The place of [r] in a list (0, 1, ...). *)
Fixpoint rank (r : N) (l : list N) : option N :=
  match l with
  | [] => None
  | x :: l' => if x =? r then Some 0 else match rank r l' with Some k => Some (k + 1) | None => None end
  end.

(** What concerns the client, among what happens: turns of its connection (with everything the connection answers in it, and which finished
    answer is taken first, if any), and the application's answering or dropping one of its requests.  [R]: the requests of the client. *)
Inductive client_event :=
| CTurn (flush_ok ready send : bool) (first : option (option N)) (next : next_ans)
| CAnswer (k : N) (x : bytes)
| CDrop (k : N).
Definition client_events (a : N) (R : list N) (evs : list rp_event) : list client_event :=
  flat_map (fun ev =>
    match ev with
    | VPeer b e => if b =? a then [CTurn (p_flush_ok e) (p_ready e) (p_send e) (option_map (fun r => rank r R) (p_pref e)) (p_next e)] else []
    | VRespond r x => match rank r R with Some k => [CAnswer k x] | None => [] end
    | VDiscard r => match rank r R with Some k => [CDrop k] | None => [] end
    | _ => []
    end) evs.

(** What is observed about the client: its requests as they come in, as the application is given them or as they are lost; the answers as
    they become frames or cannot; the frames written to it; whether respond() succeeded; its end. *)
Inductive client_obs :=
| CvIn (k : N) (m : rr_msg) | CvForApp (k source : N) (x : bytes) | CvLost (k : N)
| CvQueued (k : N) (m : rr_msg) | CvUnsendable (k : N) | CvHanded (m : rr_msg) (ok : bool)
| CvAnswered (k : N) (x : bytes) (ok : bool) | CvDropped (k : N) | CvGone.
Definition client_view (c : N) (R : list N) (l : list rout) : list client_obs :=
  let nth r f := match rank r R with Some k => [f k] | None => [] end in
  flat_map (fun x =>
    match x with
    | RIncoming b _ r m => if b =? c then nth r (fun k => CvIn k m) else []
    | RYield q => nth (q_rid q) (fun k => CvForApp k (q_source q) (q_msg q))
    | RLost r => nth r CvLost
    | RQueued b r m => if b =? c then nth r (fun k => CvQueued k m) else []
    | RUnsendable b r => if b =? c then nth r CvUnsendable else []
    | RHanded b m ok => if b =? c then [CvHanded m ok] else []
    | RResponded r x ok => nth r (fun k => CvAnswered k x ok)
    | RDiscarded r => nth r CvDropped
    | RGone b => if b =? c then [CvGone] else []
    | _ => []
    end) l.

Section Rep.
Variables (max : option N) (min : N) (auth : option (bytes -> bool)) (co : option compressor) (D : decompressors).

(** Connection [c] (from address [a]) has just started to be served - in whatever history the socket has had -, and then [evs] happens, with effects [L]. *)
Definition serves (a c : N) (evs : list rp_event) (L : list rout) : Prop :=
  exists pre s0 L0 ev s o s',
    rp_run max min auth co D rp_init pre = (s0, L0) /\ rp_act max min auth co D s0 ev = (s, o) /\ In (ROpen c a) o /\
    rp_run max min auth co D s evs = (s', L) /\
    (* the application answers and drops only requests it has *)
    (forall before r x after, evs = before ++ VRespond r x :: after -> In r (rp_held (fst (rp_run max min auth co D s before)))) /\
    (forall before r after, evs = before ++ VDiscard r :: after -> In r (rp_held (fst (rp_run max min auth co D s before)))).

(** What the others could do to the client, each shown elsewhere to matter: take over its address; fill the queue to the application so that
    a (decodable) request of the client is thrown away.  And the application keeps its socket. *)
Definition left_alone (a c : N) (L : list rout) : Prop :=
  (forall c', ~ In (ROpen c' a) L) /\
  (forall a' r m, In (RIncoming c a' r m) L -> In (RLost r) L -> try_decompress D (rr_ctype m) (rr_payload m) = None) /\
  ~ In RSocketDropped L.
End Rep.
