(** * KqMon: the calls of the tree, the monitor goroutine and the notes of a kqueue,
    interleaved.

    The calls and the processing of a note are those of Trigger.v, each under the lock of
    the watcher (/repo/watcher_trigger.go:261,273,287,420).  The kernel keeps what has
    happened to a file for its open descriptor until it is asked
    (/repo/watcher_kqueue.go:129-149: EV_CLEAR, one note per kevent call); the monitor
    (/repo/watcher_trigger.go:399-416) takes a note without the lock, and looks the descriptor
    up after it has got the lock: any calls may come between.  Simplified: the sending of
    the events (/repo/watcher_trigger.go:144-148) is part of the processing; the watcher is
    not closed (see C52, C85). *)
From Verif Require Import Base Event Paths Clean Trigger SpecTrigger.
Local Open Scope N_scope.

(** Whose descriptor it is: idLkp, /repo/watcher_kqueue.go:31-33,152-161. *)
Definition owner (s : tstate) (fd : nat) : option str := ts_id s !! fd ≫= λ i, tw_p <$> ts_heap s !! i.
(** The notes the kernel has for descriptors, and the one the monitor has taken. *)
Record kst := KS { k_t : tstate; k_pend : gmap nat N; k_mon : option (nat * N) }.
Definition kinit : kst := KS ts_init ∅ None.

Inductive klab :=
  | KCall (l : tlabel)
  | KNote (fd : nat) (ge : N) (q : str)         (* [ge] has happened to the file watched as [q] *)
  | KTake (fd : nat) (ge : N)                   (* kevent returns, /repo/watcher_kqueue.go:140-149 *)
  | KProc (p : option str) (l : tlabel).        (* process, for the descriptor of [p] *)

Definition is_call (l : tlabel) : Prop := match l with TEvent _ _ _ _ _ _ => False | _ => True end.
(** What is under the lock leaves the note on [q]'s descriptor alone: kevent with EV_DELETE
    and close are made for the path given to Unwatch or Rewatch and the entries listed
    there (/repo/watcher_trigger.go:239-253,287-295,368-397), and when an event is processed for
    what has been removed or renamed, what was below something renamed, and what cannot be
    watched again (/repo/watcher_trigger.go:315-329,428-437,449-451). *)
Definition spares (l : klab) (q : str) : Prop :=
  match l with
  | KCall (TUnwatch _ A p _) | KCall (TRewatch _ A _ p _ _) => q ≠ p ∧ ∀ ls fi, a_ls A p = Some ls → fi ∈ ls → q ≠ join p (fi_name fi)
  | KProc (Some p) (TEvent st A _ _ ge _) =>
      (p = q → ge .& native_gone kq = 0 ∧ (st = None ∨ a_watch A q = SOk)) ∧
      (nonzero (ge .& t_rename kq) = true → has_prefix (p ++ [slash]) q = false)
  | _ => True
  end.
(** The notes after it: those spared stay; a descriptor that was closed, though perhaps
    opened again, has none. *)
Definition notes_after (l : klab) (s s' : tstate) (pend pend' : gmap nat N) : Prop :=
  ∀ fd, (pend' !! fd = pend !! fd ∨ pend' !! fd = None) ∧
    (ts_id s' !! fd ≠ ts_id s !! fd → pend' !! fd = None) ∧
    (∀ q, owner s fd = Some q → spares l q → pend' !! fd = pend !! fd).

Inductive kstep : kst → klab → kst → Prop :=
  | k_call t pend mon l t' pend' : is_call l → label_ok l → tstep kq t l t' → notes_after (KCall l) t t' pend pend' →
      kstep (KS t pend mon) (KCall l) (KS t' pend' mon)
  | k_note t pend mon fd ge q m : owner t fd = Some q → ts_reg t !! inl fd = Some m → ge ≠ 0 → incl_ev ge m →
      kstep (KS t pend mon) (KNote fd ge q) (KS t (<[fd := default 0 (pend !! fd) .| ge]> pend) mon)
  | k_take t pend fd ge : pend !! fd = Some ge → kstep (KS t pend None) (KTake fd ge) (KS t (delete fd pend) (Some (fd, ge)))
  | k_proc t pend fd ge st A ord evn t' pend' :
      let l := TEvent st A ord (inl fd) ge evn in
      label_ok l → tstep kq t l t' → notes_after (KProc (owner t fd) l) t t' pend pend' →
      kstep (KS t pend (Some (fd, ge))) (KProc (owner t fd) l) (KS t' pend' None).
Inductive krun : list klab → kst → Prop :=
  | krun_init : krun [] kinit
  | krun_step ls s l s' : krun ls s → kstep s l s' → krun (ls ++ [l]) s'.
Definition is_note (l : klab) : bool := match l with KNote _ _ _ => true | _ => false end.
Definition is_proc (l : klab) : bool := match l with KProc _ _ => true | _ => false end.
(** What follows from a state on *)
Inductive kruns : kst → list klab → kst → Prop :=
  | kruns_nil s : kruns s [] s
  | kruns_cons s l s' ls s'' : kstep s l s' → kruns s' ls s'' → kruns s (l :: ls) s''.
