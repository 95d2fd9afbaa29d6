(** * SpecMacClose: executions around a call of Close on macOS *)
From Verif Require Import Base Event Paths Node SpecOS Fsev MacConc SpecMacConc MacClose.
Local Open Scope N_scope.

(** Close is called in the state [s0] of an execution and has returned in the state [s]. *)
Definition closes (s0 s : cls) : Prop :=
  ∃ since tr0 s1 tr s2, xexec since tr0 s0 ∧ xstep s0 AClose s1 ∧
    xsteps s1 tr s2 ∧ AClose ∉ tr ∧ AShut ∉ tr ∧ xstep s2 AShut s.
(** Nobody calls anything. *)
Definition nobody_calls (tr : list xlab) : Prop := ACall ∉ tr ∧ AClose ∉ tr.
(** No callback is running, or one of a watch that was in the table when Close was called and
    whose set it has not loaded. *)
Definition none_running (s0 s : cls) : Prop :=
  m_q (x_m s) = QIdle ∨ ∃ p r w evs, m_q (x_m s) = QFound r w evs ∧ m_tab (x_m s0) !! p = Some w.
(** A stream of the OS is running. *)
Definition stream_runs (s : cls) : Prop := ∃ r x, m_os (x_m s) !! r = Some x ∧ os_run x = true.
