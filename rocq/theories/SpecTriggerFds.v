(** * Specification vocabulary for C59-C64 (kqueue and FEN). *)
From Verif Require Import Base Event Paths Clean Trigger SpecTrigger.
Local Open Scope N_scope.

(** ** Descriptors *)
(** Every open descriptor is that of something in the table. *)
Definition no_leak (s : tstate) : Prop := ∀ fd, fd ∈ ts_open s → is_Some (ts_id s !! fd).
(** The OS does not refuse to register an open descriptor. *)
Definition registers (A : answers) : Prop := ∀ p, a_watch A p = SOk.
Definition registers_l (l : tlabel) : Prop :=
  match l with
  | TWatch _ A _ _ _ | TUnwatch _ A _ _ | TEvent _ A _ _ _ _ => registers A
  | TRewatch _ A A' _ _ _ => registers A ∧ registers A'
  end.
(** [w] is what the native event is about. *)
Definition subject (T : trig) (s : tstate) (k : ident) (w : tw) : Prop := tw_at s (tw_p w) = Some w ∧ ident_of T w = k.
(** A directory in the table is reported gone, and it is noticed. *)
Definition dir_gone (T : trig) (s : tstate) (k : ident) (ge : N) (w : tw) : Prop :=
  subject T s k w ∧ tw_dir w = true ∧ ge .& (t_rename T .| t_remove T) ≠ 0 ∧ noticed T w ge.

(** ** Events *)
(** If the OS reports that something was renamed or removed, that was requested. *)
Definition asked (T : trig) (w : tw) (ge : N) : Prop :=
  (ge .& t_rename T ≠ 0 → tw_e w .& (Rename (t_plat T) .| t_rename T) ≠ 0) ∧
  (ge .& t_remove T ≠ 0 → tw_e w .& (Remove (t_plat T) .| t_remove T) ≠ 0).
(** The event is about the subject itself, about an entry of it, or about something known
    below it. *)
Definition about (s : tstate) (A : answers) (w : tw) (ev : tevent) : Prop :=
  te_p ev = tw_p w ∨ (∃ ls, a_ls A (tw_p w) = Some ls ∧ te_p ev ∈ entries (tw_p w) ls) ∨ (below (tw_p w) (te_p ev) ∧ is_Some (tw_at s (te_p ev))).
