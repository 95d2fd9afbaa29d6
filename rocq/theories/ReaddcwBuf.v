(** * ReaddcwBuf: the walk through the buffer of a completed read on Windows
    (/repo/watcher_readdcw.go:342-420), byte by byte, and the conversion of names. *)
From Verif Require Import Base Event Paths Node Inotify Readdcw.
Local Open Scope N_scope.

(** ** Names: syscall.UTF16ToString (used at /repo/watcher_readdcw.go:406)
    The function belongs to the Go library, it is modelled after its documentation: the
    units up to the first NUL, pairs of surrogates put together, other surrogates
    replaced by U+FFFD, the result encoded as UTF-8. *)
(** 16-bit little-endian units *)
Fixpoint units (l : str) : list N :=
  match l with
  | c :: d :: l => (N_of_ascii c + 256 * N_of_ascii d) :: units l
  | _ => []
  end.
Fixpoint cut0 (l : list N) : list N :=
  match l with
  | [] => []
  | u :: l => if u =? 0 then [] else u :: cut0 l
  end.
Definition hi_surr (u : N) : bool := (0xD800 <=? u) && (u <? 0xDC00).
Definition lo_surr (u : N) : bool := (0xDC00 <=? u) && (u <? 0xE000).
Fixpoint utf16_dec (l : list N) : list N :=
  match l with
  | [] => []
  | u :: l =>
      if hi_surr u then
        match l with
        | v :: l' => if lo_surr v then (0x10000 + (u - 0xD800) * 1024 + (v - 0xDC00)) :: utf16_dec l' else 0xFFFD :: utf16_dec l
        | [] => [0xFFFD]
        end
      else if lo_surr u then 0xFFFD :: utf16_dec l
      else u :: utf16_dec l
  end.
Definition utf8 (c : N) : str :=
  ascii_of_N <$>
  (if c <? 0x80 then [c]
   else if c <? 0x800 then [0xC0 + c / 64; 0x80 + c mod 64]
   else if c <? 0x10000 then [0xE0 + c / 4096; 0x80 + (c / 64) mod 64; 0x80 + c mod 64]
   else [0xF0 + c / 262144; 0x80 + (c / 4096) mod 64; 0x80 + (c / 64) mod 64; 0x80 + c mod 64]).
Definition UTF16ToString (l : list N) : str := utf16_dec (cut0 l) ≫= utf8.

(** ** The walk *)
(** syscall.FileNotifyInformation: three uint32 (NextEntryOffset, Action,
    FileNameLength), then the name. *)
Definition fnhdr : nat := 12.
(** syscall.MAX_LONG_PATH, the bound of the slice at :406 *)
Definition MAX_LONG_PATH : N := 0x8000.
(** /repo/watcher_readdcw.go:401-419: the elements collected by the loop.  [None] = index
    or slice out of range (panic), a name or header that leaves the buffer (undefined
    behaviour of package unsafe), or out of fuel.  currOffset is a uint32. *)
Fixpoint walk (buf : str) (n : N) (fuel : nat) (off : N) : option (list fninfo) :=
  match fuel with
  | O => None
  | S fuel =>
      let pos := N.to_nat off in
      if (length buf <? pos + fnhdr)%nat then None
      else
        let next := u32_of (take 4 (drop pos buf)) in
        let action := u32_of (take 4 (drop (pos + 4) buf)) in
        let len := u32_of (take 4 (drop (pos + 8) buf)) in
        let k := N.to_nat (2 * (len / 2)) in   (* FileNameLength>>1 units *)
        if MAX_LONG_PATH <? len / 2 then None
        else if (length buf <? pos + fnhdr + k)%nat then None
        else
          let x := FN action (UTF16ToString (units (take k (drop (pos + fnhdr) buf)))) in
          if next =? 0 then Some [x]
          else
            let off := (off + next) mod 2 ^ 32 in
            if n <=? off then Some [x]
            else match walk buf n fuel off with Some l => Some (x :: l) | None => None end
  end.
(** A completion in the loop (/repo/watcher_readdcw.go:365-367) up to the channel: with
    n = 0 nothing is looked at. *)
Definition completed (dir : str) (filter : N) (buf : str) (n : N) : option (list rdevent) :=
  if n =? 0 then Some [] else loopevent dir filter <$> walk buf n (S (N.to_nat n)) 0.
