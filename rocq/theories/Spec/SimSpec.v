(** dnctl(8), as its manual page describes `dnctl pipe N config ...` and `dnctl pipe delete N`. *)
From Coq Require Import List NArith String Ascii DecimalString QArith Qminmax.
Import ListNotations.
Open Scope N_scope.

(** Reading a decimal number. *)
Definition number (s : string) : option N := match NilEmpty.uint_of_string s with Some u => Some (N.of_uint u) | None => None end.
Definition is_digit (c : ascii) : bool := let n := N_of_ascii c in (48 <=? n) && (n <=? 57).
(** The leading digits, and the rest. *)
Fixpoint split_digits (s : string) : string * string :=
  match s with
  | EmptyString => (EmptyString, EmptyString)
  | String c r => if is_digit c then let (d, u) := split_digits r in (String c d, u) else (EmptyString, s)
  end.
(** "bw bandwidth: measured in [K|M]{bit/s|Byte/s}": bits per second. *)
Definition bandwidth (s : string) : option N :=
  let (d, u) := split_digits s in
  match number d with
  | Some n => if (u =? "Kbit/s")%string then Some (n * 1000)
              else if (u =? "Mbit/s")%string then Some (n * 1000000)
              else if (u =? "bit/s")%string then Some n else None
  | None => None
  end.

(** What a pipe does to the traffic: bits per second (None: unlimited), delay in milliseconds, and the fraction of packets lost. *)
Record effect := mkEff { ef_bw : option N; ef_delay : N; ef_loss : Q }.

Section Dnctl.
Variable readq : string -> option Q.    (* reading a floating point number *)

(** "plr: a floating-point number between 0 and 1, with 0 meaning no loss, 1 meaning 100% loss" (values outside are cut off). *)
Fixpoint settings (args : list string) (e : effect) : option effect :=
  match args with
  | [] => Some e
  | k :: v :: l =>
    if (k =? "bw")%string then match bandwidth v with Some n => settings l (mkEff (Some n) (ef_delay e) (ef_loss e)) | None => None end
    else if (k =? "delay")%string then match number v with Some n => settings l (mkEff (ef_bw e) n (ef_loss e)) | None => None end
    else if (k =? "plr")%string then
      match readq v with Some q => settings l (mkEff (ef_bw e) (ef_delay e) (Qmax 0 (Qmin 1 q))) | None => None end
    else None
  | _ => None
  end.

(** `sudo dnctl pipe N config ...`: the pipe configured and what it then does. *)
Definition dnctl_config (cmd : list string) : option (N * effect) :=
  match cmd with
  | a :: b :: c :: n :: d :: l =>
    if ((a =? "sudo") && (b =? "dnctl") && (c =? "pipe") && (d =? "config"))%string%bool
    then match number n, settings l (mkEff None 0 0) with Some n, Some e => Some (n, e) | _, _ => None end
    else None
  | _ => None
  end.
(** `sudo dnctl pipe delete N`: the pipe deleted. *)
Definition dnctl_delete (cmd : list string) : option N :=
  match cmd with
  | [a; b; c; d; n] => if ((a =? "sudo") && (b =? "dnctl") && (c =? "pipe") && (d =? "delete"))%string%bool then number n else None
  | _ => None
  end.
End Dnctl.
