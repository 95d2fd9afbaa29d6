(** * TreeClose: Close of the non-recursive tree.

    Close of the tree (/repo/tree_nonrecursive.go:305-309) closes the watcher and then, whether
    or not that failed, the channel the watcher sends to and the dispatcher receives from
    (/repo/tree.go:16,21).  A send on a closed channel is a panic, also one that has been
    waiting for room; the dispatcher's loop (/repo/tree_nonrecursive.go:35-78) ends when the
    channel is closed and empty.  The watcher's Close and its goroutines are those of
    TriggerClose.v (kqueue, FEN) and InotifyConc.v.  Simplified: Close of the tree is called
    once; the goroutines the dispatcher starts are left out (see TreeConc.v), and so is the
    goroutine for directory events, which waits on another channel that nobody closes. *)
From Verif Require Import Base.
From Verif Require TriggerClose InotifyConc.

(** ** kqueue and FEN *)
Section trigger.
(** Capacity of the channel (/repo/tree.go:7); whether Stop of the trigger may fail
    (/repo/watcher_trigger.go:121-124). *)
Context (cap : nat) (may_fail : bool).
(** The watcher; the channel has been closed; the dispatcher is running; how many events
    were sent and received so far; the program has panicked. *)
Record tst := TS { t_w : TriggerClose.cstate; t_closed : bool; t_disp : bool; t_sent : nat; t_took : nat; t_panic : bool }.
Definition tinit : tst := TS (TriggerClose.cinit true) false true 0 0 false.
Notation fails w w' := (TriggerClose.cc w = TriggerClose.CStop ∧ TriggerClose.cc w' = TriggerClose.CRet).
Inductive tstep : tst → tst → Prop :=
  (* the watcher, its callers and the OS *)
  | t_other a w w' d n k c : TriggerClose.cstep cap a w w' → a ≠ TriggerClose.Receiver → (fails w w' → may_fail = true) →
      TriggerClose.out w' = TriggerClose.out w → tstep (TS w c d n k false) (TS w' c d n k false)
  | t_send w w' d n k : TriggerClose.cstep cap TriggerClose.Monitor w w' → TriggerClose.out w' = S (TriggerClose.out w) →
      tstep (TS w false d n k false) (TS w' false d (S n) k false)
  | t_crash w i d n k : TriggerClose.mc w = TriggerClose.MSend (S i) → tstep (TS w true d n k false) (TS w true d n k true)
  (* /repo/tree_nonrecursive.go:36 *)
  | t_take w w' c n k : TriggerClose.cstep cap TriggerClose.Receiver w w' → tstep (TS w c true n k false) (TS w' c true n (S k) false)
  | t_end w n k : TriggerClose.out w = 0 → tstep (TS w true true n k false) (TS w true false n k false)
  (* /repo/tree_nonrecursive.go:307 *)
  | t_close w d n k : TriggerClose.cc w = TriggerClose.CRet → tstep (TS w false d n k false) (TS w true d n k false).
End trigger.

(** ** inotify *)
(** As above; c_out are all events sent so far. *)
Record ist := IS { i_s : InotifyConc.cstt; i_closed : bool; i_disp : bool; i_took : nat; i_panic : bool }.
Definition iinit : ist := IS InotifyConc.cinit false true 0 false.
Inductive istep : ist → ist → Prop :=
  | i_lib s s' c d k : InotifyConc.cstep s s' → (c = true → InotifyConc.c_out s' = InotifyConc.c_out s) →
      istep (IS s c d k false) (IS s' c d k false)
  | i_os s s' c d k : InotifyConc.ostep s s' → istep (IS s c d k false) (IS s' c d k false)
  | i_crash s j e l d k : InotifyConc.c_cons s !! j = Some (InotifyConc.CSend (e :: l)) → istep (IS s true d k false) (IS s true d k true)
  | i_take s c k : k < length (InotifyConc.c_out s) → istep (IS s c true k false) (IS s c true (S k) false)
  | i_end s k : k = length (InotifyConc.c_out s) → istep (IS s true true k false) (IS s true false k false)
  | i_close s d k : InotifyConc.c_close s = InotifyConc.KReturned → istep (IS s false d k false) (IS s true d k false).
