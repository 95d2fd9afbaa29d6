(** * SpecOS: the state of the operating system's watches, read off the calls made
    to the watcher.

    [os_watches log] replays the successful calls: which paths are watched, for
    which events, and whether natively recursively. *)
From Verif Require Import Base Event Watchpoint Node.
Local Open Scope N_scope.

Notation ostab := (gmap str (N * bool)).
Definition os_step (m : ostab) (x : wcall * bool) : ostab :=
  match x with
  | (_, false) => m
  | (WWatch p e, true) => <[p := (e, false)]> m
  | (WRewatch p _ e, true) => <[p := (e, false)]> m
  | (WUnwatch p, true) => delete p m
  | (WRecWatch p e, true) => <[p := (e, true)]> m
  | (WRecUnwatch p, true) => delete p m
  | (WRecRewatch p q _ e, true) => <[q := (e, true)]> (delete p m)
  end.
Definition os_watches (log : wlog) : ostab := foldl os_step ∅ log.

(** The documented preconditions of the watcher (/repo/watcher.go:7-65). *)
Definition legal (P : platform) (m : ostab) (c : wcall) : Prop :=
  let ev_ok e := e ≠ 0 ∧ disj_ev e (internal P) in
  match c with
  | WWatch p e | WRecWatch p e => m !! p = None ∧ ev_ok e
  | WUnwatch p | WRecUnwatch p => is_Some (m !! p)
  | WRewatch p old new => fst <$> m !! p = Some old ∧ old ≠ new ∧ ev_ok new
  | WRecRewatch p q old new =>
      fst <$> m !! p = Some old ∧ ev_ok new ∧ (p ≠ q → m !! q = None)
  end.
(** Every call of the log respected its precondition when it was made. *)
Definition log_legal (P : platform) (log : wlog) : Prop :=
  ∀ l1 c ok l2, log = l1 ++ (c, ok) :: l2 → legal P (os_watches l1) c.
