(** What a history of a QUIC listener looks like from outside (C92). *)
From Verif Require Import Model.Base Model.QuicAccept.

(** The connections that reached the listener, and those that were handed on, in order. *)
Definition arrived (o : list aout) : list N := flat_map (fun x => match x with AArrived c => [c] | _ => [] end) o.
Definition handed_on (o : list aout) : list N := flat_map (fun x => match x with AGave c => [c] | _ => [] end) o.

(** The accepting task runs, or somebody polls: nothing else happens. *)
Definition running (ev : aevent) : Prop := ev = EStep \/ ev = EPoll.

(** [turns n evs]: [evs] contains [n] successive stretches in each of which both the accepting task and the caller of poll_accept get a
    turn. *)
Inductive turns : nat -> list aevent -> Prop :=
| turns_end : forall evs, turns 0 evs
| turns_more : forall n seg evs, In EStep seg -> In EPoll seg -> turns n evs -> turns (S n) (seg ++ evs).

Definition steps (evs : list aevent) : nat := length (filter (fun ev => match ev with EStep => true | _ => false end) evs).
