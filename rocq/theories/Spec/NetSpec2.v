(** Vocabulary for the end-to-end properties of publish/subscribe. *)
From Coq Require Import List NArith.
From Verif Require Import Model.Base Model.Map Model.WirePubSub Model.Compression Model.Framed Model.Trie Model.PubDriver Model.SubDriver Model.Net Model.PubSubNet Spec.Topics Spec.PubSpec Spec.SubSpec.
Import ListNotations.
Open Scope N_scope.

(** The publish() and try_publish() calls of the publisher's application, in order: topic and payload. *)
Definition announced (evs : list zev) : list (bytes * bytes) :=
  flat_map (fun ev => match ev with ZPublish t p | ZTryPublish t p => [(t, p)] | _ => [] end) evs.

(** Publisher: frames its connection [cid] took; frames received on it. *)
Definition taken_on (cid : N) (l : list qout) : list ps_msg :=
  flat_map (fun x => match x with QHanded c m true => if eq_dec c cid then [m] else [] | _ => [] end) l.
Definition controls_on (cid : N) (l : list qout) : list ps_msg :=
  flat_map (fun x => match x with QControl c m _ => if eq_dec c cid then [m] else [] | _ => [] end) l.
(** Subscriber: frames its connection [cid] took. *)
Definition written_on (cid : N) (l : list uout) : list ps_msg :=
  flat_map (fun x => match x with UWire c m true => if eq_dec c cid then [m] else [] | _ => [] end) l.

(** The subscriber's connection [c] is one to the publisher; it is the publisher's connection [d]. *)
Definition to_publisher (z : zsys) (c : N) : Prop := mget c (z_ccids z) <> None.
Definition same_connection (z : zsys) (c d : N) : Prop := exists l, mget c (z_ccids z) = Some l /\ mget d (z_scids z) = Some l.

(** The publisher's connection [d] is one of the subscriber's. *)
Definition from_subscriber (z : zsys) (d : N) : Prop := mget d (z_scids z) <> None.

(** All frames fit the wire format: payloads are shorter than 4 GiB (the length field has 32 bits), timestamps are 64-bit
    numbers (they are u64 in the program). *)
Definition ps_frames_fit (z : zsys) : Prop :=
  (forall d m, In (QHanded d m true) (z_slog z) -> blen (ps_payload m) < 2 ^ 32 /\ ps_timestamp m < 2 ^ 64) /\
  (forall c m, In (UWire c m true) (z_clog z) -> ps_timestamp m < 2 ^ 64).

(** Everything written by the publisher on the connection has been read by the subscriber's session. *)
Definition arrived (z : zsys) (c : N) : Prop :=
  exists l k, mget c (z_ccids z) = Some l /\ mget l (z_links z) = Some k /\
    pp_todo (en_in (lk_c k)) = [] /\ fr_codec (en_fr (lk_c k)) = PSHeader /\ fr_buf (en_fr (lk_c k)) = [].

(** What the application of the subscriber got from connection [c]: topics and payloads. *)
Definition obtained (c : N) (l : list uout) : list (bytes * bytes) := map (fun q => match q with (_, t, p) => (t, p) end) (yielded c l).

(** The operations a sequence of control frames stands for. *)
Definition means (ms : list ps_msg) : list tr_op := flat_map (fun m => match msg_to_control m with Some o => [o] | None => [] end) ms.

(** The subscriber refused nothing received on connection [c] (both its queues always had room), still holds the connection,
    and the application has taken everything out. *)
Definition nothing_refused (c : N) (l : list uout) : Prop :=
  (forall m now r, In (URecv c m now r) l -> r = TSent) /\ (forall m a p r, In (UDeliver c m a p r) l -> r = TSent) /\ ~ driver_closed c l /\ ~ In UDropped l.
Definition all_taken_out (z : zsys) (c : N) : Prop :=
  (forall x, mget c (sb_conns (z_c z)) = Some x -> sc_in x = []) /\ sb_out (z_c z) = [].
(** No call of publish()/try_publish() failed, and the publisher socket is still there. *)
Definition all_published (l : list qout) : Prop := ~ In QPublishErr l /\ ~ In QClosed l.

(** *** A concrete run for the examples.
    A subscriber with token "t" and a publisher that accepts exactly this token and compresses (by prefixing a byte; "lz4").
    The subscriber subscribes to "*.b" and connects; the handshake and the messages arrive in pieces.  Published are
    "a.b" 01, "a" 02 and "c.b" 03. *)
Definition zx_D : decompressors :=
  {| d_gzip := fun _ => None; d_zstd := fun _ => None; d_snappy := fun _ => None; d_lz4 := fun q => match q with x7f :: p => Some p | _ => None end |}.
Definition zx_co : compressor := {| cmp_type := CLz4; cmp_fun := fun p => Some (x7f :: p) |}.
Definition zx_tok : bytes := [x74].
Definition zx_auth (t : bytes) : bool := match t with [x74] => true | _ => false end.
Definition zx_s (i : list io) : zev := ZSub 0 (sx_env PnPending) i.
Definition zx_p (i : list io) : zev := ZPub 0 (px_env PnPending) i.
Definition zx_ab : bytes := [x61; x2e; x62].
Definition zx_cb : bytes := [x63; x2e; x62].
Definition zx_star : bytes := [x2a; x2e; x62].
Definition zx_frame (q : N) (t p : bytes) : bytes := match ps_new 5 q t p x04 with Some m => ps_encode m | None => [] end.
Definition zx_ctl : bytes := match ps_new_sub 5 zx_star with Some m => ps_encode m | None => [] end.
Definition zx_evs : list zev :=
  [ZApi (ApSub true zx_star); ZApi (ApConnect true (Some sx_addr)); ZCommand; ZCommand; ZConnected sx_addr true;
   ZAccept (Some 0); ZConn 0 (Some true); ZAuth 0 [IoData [x01; x00]; IoPending; IoData [x00; x00; x01; x74]] true;
   ZJoin 0 (JConn true [IoData [x01]; IoData [x01]]) [];
   zx_s []; zx_s []; zx_s [];
   zx_p [IoData (firstn 3 zx_ctl)]; zx_p [IoData (skipn 3 zx_ctl)];
   ZPublish zx_ab [x01]; ZPublish [x61] [x02]; ZTryPublish zx_cb [x03];
   zx_p []; zx_p []; zx_p []; zx_p []; zx_p [];
   zx_s [IoData (zx_frame 0 zx_ab [x7f; x01] ++ [x03])]; zx_s [IoData (skipn 1 (zx_frame 1 zx_cb [x7f; x03]))]; zx_s [];
   ZEntry sx_addr 10; ZEntry sx_addr 10; ZTake; ZTake].
Definition zx_run : zsys := z_run (Some zx_tok) 4 1000 zx_D None 8 0 (Some zx_auth) (Some zx_co) zx_evs.

(** The same events with an authenticator that accepts nothing: what the example run looks like for a subscriber that is not
    welcome (C71). *)
Definition zx_reject : zsys :=
  z_run (Some zx_tok) 4 1000 zx_D None 8 0 (Some (fun _ => false)) (Some zx_co)
    (firstn 8 zx_evs ++ [ZJoin 0 (JConn true [IoData [x01]; IoData [x00]]) []]).
