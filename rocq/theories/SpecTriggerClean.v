(** * Specification vocabulary for C85 (Close of the kqueue and FEN watcher). *)
From Verif Require Import Base Event Paths Clean Trigger SpecTrigger SpecTriggerFds TriggerClean.
Local Open Scope N_scope.

(** [l] visits each path in the table once, in some order. *)
Definition visits (s : tstate) (l : list (str * answers)) : Prop := l.*1 ≡ₚ (map_to_list (ts_path s)).*1.
(** Nothing is watched. *)
Definition nothing (s : tstate) : Prop := ∀ p, tw_at s p = None.
(** Whoever is watched as a member of a directory is found in a directory that is watched
    directly: no file went away unnoticed, and no directory. *)
Definition found (r : roles) (ty : str → bool) (ls : str → list finfo) : Prop :=
  ∀ q, member r q ≠ 0 → ∃ d, direct r d ≠ 0 ∧ ty d = true ∧ q ∈ entries d (ls d).
(** [q] is not in what any directory of the table is found to contain. *)
Definition unlisted (s : tstate) (l : list (str * answers)) (q : str) : Prop :=
  ∀ d A w ls, (d, A) ∈ l → tw_at s d = Some w → tw_dir w = true → a_ls A d = Some ls → q ∉ entries d ls.
(** [q] is still in the table, with its descriptor. *)
Definition kept (T : trig) (s s' : tstate) (q : str) : Prop :=
  ∃ w w', tw_at s q = Some w ∧ tw_at s' q = Some w' ∧ tw_fd w' = tw_fd w ∧ (t_fds T = true → tw_fd w ∈ ts_open s').
