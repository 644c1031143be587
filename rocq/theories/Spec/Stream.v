(** Vocabulary for statements about connections that receive a byte stream in pieces. *)
From Coq Require Import List.
From Verif Require Import Model.Base Model.Framed.

(** The transport delivers data (non-empty reads) at arbitrary moments. *)
Definition delivery (i : io) : Prop :=
  match i with IoData (_ :: _) => True | IoPending => True | _ => False end.

(** The bytes delivered by a list of reads. *)
Definition received (input : list io) : bytes :=
  concat (map (fun i => match i with IoData c => c | _ => [] end) input).

(** How a connection's input may end. *)
Inductive ending := StillOpen | Eof | Reset.
Definition ending_io (e : ending) : list io :=
  match e with StillOpen => [] | Eof => [IoData []] | Reset => [IoErr] end.

(** The messages among poll results. *)
Definition items {M E} (rs : list (polled M E)) : list M :=
  flat_map (fun r => match r with PItem m => [m] | _ => [] end) rs.

(** What the user of a connection sees: poll results without `Pending`, up to and including the
    first error or end of stream. *)
Fixpoint observed {M E} (rs : list (polled M E)) : list (polled M E) :=
  match rs with
  | [] => []
  | PPending :: rs' => observed rs'
  | PItem m :: rs' => PItem m :: observed rs'
  | r :: _ => [r]
  end.

Definition prefix_of {A} (p l : list A) : Prop := exists r, l = p ++ r.
