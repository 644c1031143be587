(** `String::from_utf8_lossy` (Rust std, core::str::lossy Utf8Chunks::next and alloc::string), external code modelled
    from its source; used at msg-socket/src/pub/session.rs 119, 122 and msg-socket/src/sub/stream.rs 79. *)
From Verif Require Import Model.Base.

(** `safe_get(xs, i)`: 0 past the end. *)
Definition safe_get (b : bytes) (i : nat) : N := match nth_error b i with Some x => Byte.to_N x | None => 0 end.

(** `utf8_char_width`, the table of core::str::validations. *)
Definition char_width (b : N) : N :=
  if b <? 0x80 then 1 else if b <? 0xc2 then 0 else if b <? 0xe0 then 2 else if b <? 0xf0 then 3 else if b <? 0xf5 then 4 else 0.

(** `x & 192 == 128` *)
Definition is_cont (x : N) : bool := (0x80 <=? x) && (x <? 0xc0).
Definition in_range (lo x hi : N) : bool := (lo <=? x) && (x <=? hi).

(** The body of the while loop on a non-empty source: how many bytes are consumed, and whether they are a character
    ([false]: `break`; the bytes consumed so far are the invalid part of the chunk). *)
Definition utf8_step (b : bytes) : nat * bool :=
  let x0 := safe_get b 0 in
  if x0 <? 128 then (1%nat, true)
  else
    let w := char_width x0 in
    if w =? 2 then
      if is_cont (safe_get b 1) then (2%nat, true) else (1%nat, false)
    else if w =? 3 then
      let x1 := safe_get b 1 in
      if (x0 =? 0xe0) && in_range 0xa0 x1 0xbf || in_range 0xe1 x0 0xec && in_range 0x80 x1 0xbf
         || (x0 =? 0xed) && in_range 0x80 x1 0x9f || in_range 0xee x0 0xef && in_range 0x80 x1 0xbf then
        if is_cont (safe_get b 2) then (3%nat, true) else (2%nat, false)
      else (1%nat, false)
    else if w =? 4 then
      let x1 := safe_get b 1 in
      if (x0 =? 0xf0) && in_range 0x90 x1 0xbf || in_range 0xf1 x0 0xf3 && in_range 0x80 x1 0xbf
         || (x0 =? 0xf4) && in_range 0x80 x1 0x8f then
        if is_cont (safe_get b 2) then
          if is_cont (safe_get b 3) then (4%nat, true) else (3%nat, false)
        else (2%nat, false)
      else (1%nat, false)
    else (1%nat, false).

(** "\u{FFFD}" *)
Definition replacement : bytes := [xef; xbf; xbd].

(** from_utf8_lossy: the chunks are concatenated, a replacement character for each invalid part.  (Simplification: one
    recursive call per character instead of one per chunk; [n] bounds the recursion.) *)
Fixpoint lossy_aux (n : nat) (b : bytes) : bytes :=
  match n, b with
  | O, _ | _, [] => []
  | S n', _ =>
    let (k, ok) := utf8_step b in
    (if ok then firstn k b else replacement) ++ lossy_aux n' (skipn k b)
  end.
Definition from_utf8_lossy (b : bytes) : bytes := lossy_aux (length b) b.
