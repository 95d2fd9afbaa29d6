(** * SpecWinPath: what a path denotes on Windows *)
From Verif Require Import Base Event Paths PathsFacts Loop Clean Node SpecTree SpecNonRec SpecOS SpecRec WinPath.

(** A drive, or \\host\share. *)
Definition word (s : str) : Prop := (∃ c s', s = c :: s' ∧ c ≠ "."%char) ∧ Forall (λ c, wsep c = false) s.
(** A to Z and a to z *)
Definition alphabetic (c : ascii) : Prop := (65 ≤ nat_of_ascii c ≤ 90 ∨ 97 ≤ nat_of_ascii c ≤ 122)%nat.
Definition wvolume (v : str) : Prop :=
  (∃ c, alphabetic c ∧ v = [c; colon]) ∨ (∃ h x, word h ∧ word x ∧ v = bslash :: bslash :: h ++ bslash :: x).
(** The text of an absolute path: a volume and names; without names the root directory of
    the volume. *)
Definition wtext (q : path) : str :=
  match q with [v] => v ++ [bslash] | _ => nameof bslash true q end.
(** GetFullPathName gives an absolute path, and gives back what it gave before, tidied up. *)
Definition full_ok (o : winos) : Prop :=
  ∀ p f, w_full o p = Some f →
    (∃ v c r, f = v ++ c :: r ∧ wvolume v ∧ wsep c = true) ∧ w_full o (wclean f) = Some (wclean f).
(** [p], with or without the suffix "...", is a text which the OS makes into the absolute
    path [q], after "." and ".." in it are accounted for. *)
Definition wlocated (o : winos) (p : str) (isrec : bool) (q : path) : Prop :=
  ∃ p' v c r, p = p' ++ (if isrec then b "..." else []) ∧ (isrec = false → ∀ x, p ≠ x ++ b "...") ∧
    w_full o p' = Some (v ++ c :: r) ∧ wvolume v ∧ wsep c = true ∧ q = v :: clean_comps true (wsplits r).
(** The targets of symlinks are relative or begin with a drive. *)
Definition targets_ok (o : winos) : Prop :=
  ∀ n s, w_lstat o n = Some (WLink (Some s)) → ∃ c s', s = c :: s' ∧ c ≠ colon ∧ wsep c = false.
