(** The option builders of the four sockets: req/mod.rs 47-140, rep/mod.rs 27-54, pub/mod.rs 43-107, sub/mod.rs 54-107.
    Durations are numbers of nanoseconds, a `usize` is a number (simplification: unbounded). *)
From Verif Require Import Model.Base Model.Backoff Model.ReqDriver Model.Sockets.

(** DEFAULT_BUFFER_SIZE, msg-socket/src/lib.rs 27. *)
Definition DEFAULT_BUFFER_SIZE : N := 1024.

(** ReqOptions, req/mod.rs 48-67. *)
Record req_options := mkReqO {
  qo_auth_token : option bytes; qo_timeout : N; qo_blocking_connect : bool; qo_backoff_duration : N; qo_flush_interval : option N;
  qo_backpressure_boundary : N; qo_retry_attempts : option N; qo_min_compress_size : N }.
(** Default, req/mod.rs 126-139. *)
Definition req_default : req_options := mkReqO None 5000000000 true 200000000 None 8192 None 8192.
(** A call of one of the setters, req/mod.rs 71-123. *)
Inductive req_set := QAuth (t : bytes) | QTimeout (d : N) | QBlocking | QBackoff (d : N) | QFlush (d : N) | QBoundary (n : N) | QRetry (n : N)
  | QMinCompress (n : N).
(** req/mod.rs 71-123 *)
Definition req_setter (o : req_options) (c : req_set) : req_options :=
  let (a, t, b, d, f, p, r, m) := o in
  match c with
  | QAuth x => mkReqO (Some x) t b d f p r m          (* 71-74 *)
  | QTimeout x => mkReqO a x b d f p r m              (* 77-80 *)
  | QBlocking => mkReqO a t true d f p r m            (* 83-86 *)
  | QBackoff x => mkReqO a t b x f p r m              (* 89-92 *)
  | QFlush x => mkReqO a t b d (Some x) p r m         (* 98-101 *)
  | QBoundary x => mkReqO a t b d f x r m             (* 106-109 *)
  | QRetry x => mkReqO a t b d f p (Some x) m         (* 113-116 *)
  | QMinCompress x => mkReqO a t b d f p r x          (* 120-123 *)
  end.
(** A chain of setter calls on ReqOptions::default(). *)
Definition req_build (l : list req_set) : req_options := fold_left req_setter l req_default.
(** What the driver reads, req/socket.rs 106-147: the driver's options. *)
Definition req_ropts (o : req_options) : ropts :=
  mkROpts (qo_timeout o) (qo_blocking_connect o) (qo_backoff_duration o) (qo_flush_interval o) (qo_retry_attempts o) (qo_min_compress_size o).

(** RepOptions, rep/mod.rs 28-53. *)
Record rep_options := mkRepO { po_max_clients : option N; po_min_compress_size : N }.
Definition rep_default : rep_options := mkRepO None 8192.
Inductive rep_set := PMax (n : N) | PMinCompress (n : N).
(** rep/mod.rs 42-53 *)
Definition rep_setter (o : rep_options) (c : rep_set) : rep_options :=
  match c with PMax n => mkRepO (Some n) (po_min_compress_size o) | PMinCompress n => mkRepO (po_max_clients o) n end.
Definition rep_build (l : list rep_set) : rep_options := fold_left rep_setter l rep_default.

(** PubOptions, pub/mod.rs 45-72. *)
Record pub_options := mkPubO {
  bo_max_clients : option N; bo_session_buffer_size : N; bo_flush_interval : option N; bo_backpressure_boundary : N; bo_min_compress_size : N }.
Definition pub_default : pub_options := mkPubO None DEFAULT_BUFFER_SIZE (Some 50000) 8192 8192.
Inductive pub_set := BMax (n : N) | BBuffer (n : N) | BBoundary (n : N) | BFlush (d : N) | BMinCompress (n : N).
(** pub/mod.rs 75-106 *)
Definition pub_setter (o : pub_options) (c : pub_set) : pub_options :=
  let (x, b, f, p, m) := o in
  match c with
  | BMax n => mkPubO (Some n) b f p m
  | BBuffer n => mkPubO x n f p m
  | BBoundary n => mkPubO x b f n m
  | BFlush d => mkPubO x b (Some d) p m
  | BMinCompress n => mkPubO x b f p n
  end.
Definition pub_build (l : list pub_set) : pub_options := fold_left pub_setter l pub_default.

(** SubOptions, sub/mod.rs 57-107. *)
Record sub_options := mkSubO { so_auth_token : option bytes; so_ingress_buffer_size : N; so_read_buffer_size : N; so_initial_backoff : N }.
Definition sub_default : sub_options := mkSubO None DEFAULT_BUFFER_SIZE 8192 100000000.
Inductive sub_set := UAuth (t : bytes) | UIngress (n : N) | URead (n : N) | UBackoff (d : N).
(** sub/mod.rs 72-95 *)
Definition sub_setter (o : sub_options) (c : sub_set) : sub_options :=
  let (a, i, r, b) := o in
  match c with
  | UAuth t => mkSubO (Some t) i r b
  | UIngress n => mkSubO a n r b
  | URead n => mkSubO a i n b
  | UBackoff d => mkSubO a i r d
  end.
Definition sub_build (l : list sub_set) : sub_options := fold_left sub_setter l sub_default.
