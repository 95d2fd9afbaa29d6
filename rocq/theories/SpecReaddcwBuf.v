(** * SpecReaddcwBuf: what ReadDirectoryChangesW leaves in a buffer, and names as
    sequences of Unicode characters. *)
From Verif Require Import Base Event Paths SpecInotify.
Local Open Scope N_scope.

(** ** Unicode *)
(** Characters other than NUL: no surrogates, at most 0x10FFFF. *)
Definition char_ok (c : N) : Prop := 0 < c ∧ (c < 0xD800 ∨ 0xE000 ≤ c) ∧ c < 0x110000.
(** UTF-16: one unit or a pair of surrogates. *)
Definition utf16 (c : N) : list N :=
  if c <? 0x10000 then [c] else [0xD800 + (c - 0x10000) / 1024; 0xDC00 + (c - 0x10000) mod 1024].
Definition le2 (u : N) : str := [ascii_of_N (u mod 256); ascii_of_N (u / 256)].

(** ** The buffer *)
(** A change: action and name, in 16-bit units as the filesystem has it. *)
Record change := Ch { c_action : N; c_units : list N }.
Definition unit_ok (u : N) : Prop := u < 2 ^ 16.
(** A name has at most 2^15 units. *)
Definition change_ok (x : change) : Prop := u32 (c_action x) ∧ Forall unit_ok (c_units x) ∧ N.of_nat (length (c_units x)) ≤ 0x8000.
Definition change_bytes (next : N) (x : change) : str :=
  le4 next ++ le4 (c_action x) ++ le4 (N.of_nat (2 * length (c_units x))) ++ (c_units x ≫= le2).
(** Every record is followed by padding of any contents and holds the distance to the
    next record, the last one zero. *)
Fixpoint layout (l : list (change * str)) : str :=
  match l with
  | [] => []
  | [(x, pad)] => change_bytes 0 x ++ pad
  | (x, pad) :: l => change_bytes (N.of_nat (12 + 2 * length (c_units x) + length pad)) x ++ pad ++ layout l
  end.
