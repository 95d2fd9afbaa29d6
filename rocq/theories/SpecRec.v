(** * SpecRec: histories of the recursive tree (macOS, Windows) and what they register *)
From Verif Require Import Base Event Watchpoint Paths PathsFacts Loop Node NonRec Rec SpecTree SpecNonRec SpecOS.
Local Open Scope N_scope.

Section hist.
(** [w] tells whether paths have volumes (Windows), [isvol] which texts are volume names. *)
Context (P : platform) (sepc : ascii) (w : bool) (isvol : str → Prop).

(** A clean absolute path other than a root directory: /a/b, or C:\a\b. *)
Definition rpath (p : path) : Prop :=
  [] ∉ p ∧
  if w then ∃ v cs, p = v :: cs ∧ isvol v ∧ cs ≠ [] ∧ comps_ok sepc cs
  else p ≠ [] ∧ comps_ok sepc p.
(** The environments considered: this platform, filepath.VolumeName finds the
    volume of every such path, and otherwise anything the OS and the Go runtime may
    do; every operation may run in a different one. *)
Record renv (E : env) : Prop := {
  re_plat : e_plat E = P;
  re_sep : e_sep E = sepc;
  re_vol : ∀ p, rpath p → e_vol E (nameof sepc w p) = if w then default [] (head p) else [];
  re_ok : env_ok E;
}.

(** ** Histories: the operations and traces of SpecNonRec, without directory events,
    which this tree does not process. *)
Definition rop_ok (o : nop) : Prop :=
  match o with
  | NWatch p _ _ e => rpath p ∧ u32 e ∧ user_ev P e
  | NStop _ => True
  | NEvent _ _ => False
  end.
Definition rstep (E : env) (s : st) (o : nop) : st * result :=
  match o with
  | NWatch p isrec n e => rec_Watch E s (nameof sepc w p) isrec (KUser n) e
  | NStop n => (rec_Stop E s (KUser n), ROk)
  | NEvent _ _ => (s, ROk)
  end.
Notation trace := (list (nop * result)).
(** [rexec tr s]: starting from the empty tree, the operations of [tr] may return
    what [tr] says, none of them panicking, and lead to state [s]. *)
Inductive rexec : trace → st → Prop :=
  | rexec_init : rexec [] init_st
  | rexec_step tr s E o s' r :
      rexec tr s → renv E → rop_ok o → rstep E s o = (s', r) → st_panic s' = false →
      rexec (tr ++ [(o, r)]) s'.
(** No Watch failed. *)
Definition all_ok (tr : trace) : Prop := Forall (λ '(_, r), r = ROk) tr.

(** How an operation with the given outcome changes the registrations: as in
    SpecNonRec, except that a failed Watch of either kind adds at most what was asked,
    and may drop a registration for no event at all. *)
Notation regs := (path → positive → N).
Definition rreg_after (o : nop) (r : result) (g g' : regs) : Prop :=
  match o with
  | NWatch p isrec n e =>
      (∀ q m, (q, m) ≠ (p, n) → g' q m = g q m) ∧
      match r with
      | ROk => g' p n = g p n .| e .| rec_bit P isrec
      | _ => (incl_ev (g p n) (g' p n) ∨ incl_ev (g p n) (recursive P)) ∧ incl_ev (g' p n) (g p n .| e .| rec_bit P isrec)
      end
  | NStop n => ∀ q m, g' q m = if decide (m = n) then 0 else g q m
  | NEvent _ _ => False
  end.
Inductive rregs : trace → regs → Prop :=
  | rregs_init g : (∀ p n, g p n = 0) → rregs [] g
  | rregs_step tr g o r g' : rregs tr g → rreg_after o r g g' → rregs (tr ++ [(o, r)]) g'.

(** How often the tree offers the event to the channel. *)
Definition rec_offered (E : env) (s : st) (ei : event_info) (k : key) : nat :=
  length (filter (k =.) (rec_dispatch E (st_tree s) ei)).

(** The events a registration must contain to be given a report.  On Windows a report
    carrying a native FileAction stands for a name change of a file or of a directory,
    or, when it does not say of which, for any modification. *)
Definition needs (ei : event_info) : N :=
  if windows P && negb (ei_event ei .& fileActionAll =? 0) then
    (ei_event ei .&^ fileActionAll) .|
    match ei_ftype ei with
    | fTypeFile => FileNotifyChangeFileName
    | fTypeDirectory => FileNotifyChangeDirName
    | fTypeUnknown => fileNotifyChangeModified
    end
  else ei_event ei.
(** A report of the OS for the entry [c] of directory [d]. *)
Definition rreported (ei : event_info) (d : path) (c : str) : Prop :=
  ei_event ei ≠ 0 ∧ disj_ev (ei_event ei) (internal P) ∧ rpath d ∧ c ≠ [] ∧ comp_ok sepc c ∧
  ei_path ei = nameof sepc w (d ++ [c]).
(** It does not say that something was modified (Windows only; there such reports
    are delivered differently). *)
Definition unmodified (ei : event_info) : Prop := windows P = true → disj_ev (needs ei) fileNotifyChangeModified.

(** ** What the OS watches *)
(** A registration for events [e] on [p], recursive or not, is covered if [p] is
    watched, or something above it recursively, for at least these events; natively
    recursively if the registration is recursive. *)
Definition os_covers (m : ostab) (p : path) (e : N) (isrec : bool) : Prop :=
  ∃ q x k, rpath q ∧ q `prefix_of` p ∧ m !! nameof sepc w q = Some (x, k) ∧ incl_ev e x ∧
    (q ≠ p ∨ isrec = true → k = true).
Definition all_covered (g : regs) (m : ostab) : Prop :=
  ∀ p n, g p n ≠ 0 → os_covers m p (g p n .&^ internal P) (bool_decide (g p n .& recursive P ≠ 0)).
(** No watched path is above another. *)
Definition unrelated (m : ostab) : Prop :=
  ∀ p q, rpath p → rpath q → above p q → m !! nameof sepc w p = None ∨ m !! nameof sepc w q = None.

(** Every OS watch is on some path, for exactly the events registered there or below. *)
Definition no_excess (g : regs) (m : ostab) : Prop :=
  ∀ x e k, m !! x = Some (e, k) → ∃ q, rpath q ∧ x = nameof sepc w q ∧
    ∀ i, has e i ↔ ¬ has (internal P) i ∧ ∃ q' n, q `prefix_of` q' ∧ has (g q' n) i.

(** ** Histories of Watch *)
(** Every operation is a successful Watch for at least one event. *)
Definition watching (o : nop) : Prop := match o with NWatch _ _ _ e => e ≠ 0 | _ => False end.
Definition watches (tr : trace) : Prop := Forall (λ '(o, r), watching o ∧ r = ROk) tr.
(** Every operation is a recursive Watch. *)
Definition recursively (o : nop) : Prop := match o with NWatch _ isrec _ _ => isrec = true | _ => False end.

(** ** Orderly histories *)
(** Events somebody has registered at [q], and strictly below [q]. *)
Definition ev_at (g : regs) (q : path) (i : N) : Prop := ∃ n, has (g q n) i ∧ ¬ has (internal P) i.
Definition ev_below (g : regs) (q : path) (i : N) : Prop := ∃ q', above q q' ∧ ev_at g q' i.
Definition without (g : regs) (n : positive) : regs := λ p m, if decide (m = n) then 0 else g p m.
Notation watched m q := (is_Some (m !! nameof sepc w q)).
(** Watching [p] is orderly if it asks for some event; if a path [q] at or above [p]
    is watched by the OS for all these events then it is watched recursively, unless
    [q] is [p] and the new registration is not recursive; and somebody has registered
    something at every path below [p] that is watched by the OS. *)
Definition orderly_watch (g : regs) (m : ostab) (p : path) (isrec : bool) (e : N) : Prop :=
  e ≠ 0 ∧
  (∀ q x, rpath q → q `prefix_of` p → (q ≠ p ∨ isrec = true) → m !! nameof sepc w q = Some (x, false) → ¬ incl_ev e x) ∧
  (∀ q, rpath q → above p q → watched m q → ∃ n, g q n ≠ 0).
(** Stopping [n] is orderly if for every path [q] watched by the OS: every event
    registered below [q] remains registered below [q]; or else some event registered
    at [q] does not remain registered at [q]; or else every event registered at [q]
    remains registered below [q]. *)
Definition orderly_stop (g : regs) (m : ostab) (n : positive) : Prop :=
  ∀ q, rpath q → watched m q →
    (∀ i, ev_below g q i → ev_below (without g n) q i) ∨
    (∃ i, ev_at g q i ∧ ¬ ev_at (without g n) q i) ∨
    (∀ i, ev_at g q i → ev_below (without g n) q i).
Definition orderly (g : regs) (m : ostab) (o : nop) : Prop :=
  match o with
  | NWatch p isrec _ e => orderly_watch g m p isrec e
  | NStop n => orderly_stop g m n
  | NEvent _ _ => True
  end.
(** The watcher refuses no call that respects its documented preconditions. *)
Definition obliging (E : env) : Prop := ∀ log c, legal P (os_watches log) c → e_W E log c = true.
(** Orderly histories with such a watcher. *)
Inductive oexec : trace → st → Prop :=
  | oexec_init : oexec [] init_st
  | oexec_step tr s E o s' r :
      oexec tr s → renv E → obliging E → rop_ok o → orderly (asked P tr) (os_watches (st_log s)) o → rstep E s o = (s', r) →
      oexec (tr ++ [(o, r)]) s'.
End hist.
