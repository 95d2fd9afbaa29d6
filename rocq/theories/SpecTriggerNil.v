(** * Specification vocabulary for C81: what a nil Watch or Unwatch of the kqueue and FEN
    watchers leaves behind. *)
From Verif Require Import Base Event Paths Clean Trigger SpecTrigger.
Local Open Scope N_scope.

(** The names in a directory are distinct, and none of them is the directory. *)
Definition distinct_names (A : answers) (p : str) : Prop := ∀ ls, a_ls A p = Some ls → NoDup (p :: entries p ls).
(** [q] is in the table for the events [x] directly and [y] as a member, and the OS watches it
    for both; [d]: as a directory. *)
Definition held_for (T : trig) (s : tstate) (q : str) (x y : N) (d : bool) : Prop :=
  (∃ w, tw_at s q = Some w ∧ tw_eDir w = x ∧ tw_eNonDir w = y) ∧ reg_at T s q = Some (t_encode T (x .| y) d).
(** The OS cannot open it, and that is taken for success (sockets, dangling links). *)
Definition left_out (T : trig) (A : answers) (s s' : tstate) (q : str) : Prop :=
  t_fds T = true ∧ a_new A q = NewSkip ∧ tw_at s q = None ∧ tw_at s' q = None.
(** Not in the table if it is for nothing, else held for it. *)
Definition rest_for (T : trig) (s : tstate) (q : str) (x y : N) (d : bool) : Prop :=
  if decide (x .| y = 0) then tw_at s q = None else held_for T s q x y d.
Definition unchanged_at (T : trig) (s s' : tstate) (q : str) : Prop := tw_at s' q = tw_at s q ∧ reg_at T s' q = reg_at T s q.
