(** Options, in words: the value in effect is the last one set, else the documented default. *)
From Coq Require Import List NArith.
From Verif Require Import Model.Base Model.Options Model.QuicConfig.
Import ListNotations.
Open Scope N_scope.

(** The last value that [pick] finds in the chain of calls. *)
Fixpoint last_set {C V : Type} (pick : C -> option V) (calls : list C) : option V :=
  match calls with
  | [] => None
  | c :: l => match last_set pick l with Some v => Some v | None => pick c end
  end.
Definition last_or {C V : Type} (pick : C -> option V) (default : V) (calls : list C) : V :=
  match last_set pick calls with Some v => v | None => default end.

(** The documented defaults: request timeout 5 s, everything buffered up to 8 KiB, compression from 8 KiB on, ... *)
Definition s : N := 1000000000.  Definition ms : N := 1000000.  Definition us : N := 1000.  Definition KiB : N := 1024.

(** The bandwidth-delay product: bytes on their way at [bandwidth] bytes per second during [rtt] milliseconds (times 1000, to stay exact). *)
Definition bdp1000 (bandwidth rtt : N) : N := bandwidth * rtt.
