(** Vocabulary for C95: the schedule on which a subscriber redials a publisher. *)
From Coq Require Import List NArith.
From Verif Require Import Model.Base Model.Map Model.SubDriver Spec.SubSpec.
Import ListNotations.
Open Scope N_scope.

Inductive redial := RdNothing | RdDial | RdGiveUp.
(** What happens at the times [times] at which the driver looks at the publisher, when it may dial [left] more times: nothing until [wait] has
    passed since [since] (the first look, if there was none before); then it dials, and the next wait is twice as long; when it may not dial
    any more, it gives the publisher up instead. *)
Fixpoint redials (wait : N) (left : nat) (since : option N) (times : list N) : list redial :=
  match times with
  | [] => []
  | t :: times' =>
    let start := match since with Some u => u | None => t end in
    if t <? start + wait then RdNothing :: redials wait left (Some start) times'
    else match left with
         | S n => RdDial :: redials (2 * wait) n (Some t) times'
         | O => RdGiveUp :: map (fun _ => RdNothing) times'
         end
  end.
(** The times at which the driver looks at the publisher [a]. *)
Definition looks (a : addr) (evs : list sb_event) : list N :=
  flat_map (fun ev => match ev with YEntry b t => if eq_dec b a then [t] else [] | _ => [] end) evs.
(** Nobody interferes: no connection to [a] is made, none is lost, and the application neither disconnects nor connects anew. *)
Definition undisturbed (a : addr) (l : list uout) : Prop :=
  ~ In (UReset a) l /\ (forall cid, ~ In (UOpen cid a) l) /\ ~ In (CDisconnect a) (commands l).
