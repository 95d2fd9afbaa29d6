(** * Specification vocabulary for C88 (setting up the kqueue and the FEN watcher). *)
From Verif Require Import Base TriggerInit.
Local Open Scope Z_scope.

(** Before: the descriptors of the program, [t n = Some true] if [n] is open for writing. *)
Definition program (X : gmap Z bool) : itab := IApp <$> X.
Definition proper (X : gmap Z bool) : Prop := ∀ n, is_Some (X !! n) → 0 ≤ n.
(** The OS gives numbers that are not in use. *)
Definition answers_ok (X : gmap Z bool) (A : ians) : Prop :=
  (∀ n, ia_kq A = Some n → 0 ≤ n ∧ X !! n = None) ∧
  (∀ n r w, ia_kq A = Some n → ia_pipe A = Some (r, w) → 0 ≤ r ∧ 0 ≤ w ∧ X !! r = None ∧ X !! w = None ∧ r ≠ w ∧ r ≠ n ∧ w ≠ n).
(** Everything the set-up needs is granted. *)
Definition granted (A : ians) : Prop := is_Some (ia_kq A) ∧ is_Some (ia_pipe A) ∧ ia_kev A = true.
(** Some call touches a descriptor of the program. *)
Definition touches (l : list icall) : Prop := ∃ n w, IClose n (Some (IApp w)) ∈ l ∨ ∃ ok, IStop n (Some (IApp w)) ok ∈ l.
