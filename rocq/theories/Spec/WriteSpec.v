(** Vocabulary for statements about the write half of a connection. *)
From Coq Require Import List NArith.
From Verif Require Import Model.Base Model.FramedWrite.
Import ListNotations.

(** The messages given to the connection, in order. *)
Definition messages_sent {M} (ops : list (wop M)) : list M :=
  flat_map (fun op => match op with WoSend m => [m] | _ => [] end) ops.

(** `flush().await` or `close().await`-style use: the call whose success promises that everything is out. *)
Definition flushes {M} (op : wop M) : Prop := exists ans, op = WoFlush ans \/ op = WoClose ans.

(** The transport reported a failure of its write side. *)
Definition write_error (a : wr) : Prop := a = WrErr \/ a = WrOk 0.

(** The owner gives a message to the connection only directly after `poll_ready` said Ready(Ok(())). *)
Fixpoint polite {M} (allowed : bool) (ops : list (wop M)) (rs : list wres) : Prop :=
  match ops, rs with
  | WoReady _ :: ops', WReady :: rs' => polite true ops' rs'
  | WoSend _ :: ops', _ :: rs' => allowed = true /\ polite false ops' rs'
  | _ :: ops', _ :: rs' => polite false ops' rs'
  | _, _ => True
  end.

(** ** The four sockets *)
From Verif Require Import Model.WireReqRep Model.WirePubSub Model.Compression Model.ReqDriver Model.RepDriver Model.PubDriver Model.SubDriver Model.Writers.

(** Request socket: the frames given to the current connection, [acc] being those before [l]. *)
Fixpoint on_connection (acc : list rr_msg) (l : list out) : list rr_msg :=
  match l with
  | [] => acc
  | Connected :: l' => on_connection [] l'
  | Handed m true :: l' => on_connection (acc ++ [m]) l'
  | _ :: l' => on_connection acc l'
  end.
(** Reply socket, publisher, subscriber: the frames given to the connection. *)
Definition rep_frames (l : list rout) : list rr_msg := flat_map (fun x => match x with RHanded _ m true => [m] | _ => [] end) l.
Definition pub_frames (l : list qout) : list ps_msg := flat_map (fun x => match x with QHanded _ m true => [m] | _ => [] end) l.
Definition sub_frames (l : list uout) : list ps_msg := flat_map (fun x => match x with UWire _ m true => [m] | _ => [] end) l.

(** Connections as they start. *)
Definition new_peer (cid : N) : peer := mkPeer cid [] [] false true.

(** What the transport answers to writes in one iteration. *)
Definition answers (a : wans) : list wr := wa_flush a ++ wa_ready a ++ wa_close a.
Definition no_write_error (a : wans) : Prop := forall x, In x (answers a) -> ~ write_error x.
(** Every write and flush fails. *)
Definition all_writes_fail (a : wans) : Prop := forall x, In x (answers a) -> write_error x.

(** Concrete things for the examples and counterexamples. *)
Definition wx_opts : ropts := mkROpts 5000000000 true 200000000 None None 8192.
(** An iteration in which nothing arrives and no timer is due. *)
Definition wx_idle : env := mkEnv 0 false false None NxPending false false 0 true false.
Definition wx_later : env := mkEnv 20000000 false false None NxPending false false 0 true false.
Definition wx_connected : env := mkEnv 20000000 false false (Some true) NxPending false false 0 false false.
Definition wx_fail : wans := mkWans [WrErr] [WrErr] [WrErr].
Definition wx_ok : wans := mkWans [WrOk 4; WrOk 100; WrOk 1] [WrOk 4; WrOk 100; WrOk 1] [WrOk 100; WrOk 1].
(** Connect, then nothing. *)
Definition wx_start : list rw_event := [RwIter wx_idle wx_fail; RwIter wx_later wx_fail; RwIter wx_connected wx_fail].
Definition wx_round : list rw_event := [RwReq 1 []; RwIter wx_idle wx_fail; RwIter wx_idle wx_fail].
Definition wx_dec : decompressors := {| d_gzip := fun _ => None; d_zstd := fun _ => None; d_snappy := fun _ => None; d_lz4 := fun _ => None |}.
