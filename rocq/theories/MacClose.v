(** * MacClose: closing the tree on macOS (/repo/tree_recursive.go:349-354), that is the
    watcher (/repo/watcher_fsevents.go:304-311) and then the channel from the watcher to the
    tree, while callbacks run. *)
From Verif Require Import Base Event Paths Node SpecOS Fsev MacConc.
Local Open Scope N_scope.

(** The goroutine inside Close: it is in the loop over the watches, before the next one; in
    [Stop] of the watch [w] before streamFuncs.delete (/repo/watcher_fsevents_cgo.go:162), the
    store to events, the store to isrec (/repo/watcher_fsevents.go:171-172); the watcher is
    closed, the channel is not. *)
Inductive xpc := XIdle | XLoop (l : list N) | XUnreg (w : N) (l : list N) | XEv (w : N) (l : list N) | XRec (w : N) (l : list N) | XChan.
(** [x_nil]: the table is a nil map; [x_chan]: the channel is closed; [x_panic]: the program
    has panicked. *)
Record cls := Cls { x_m : mst; x_nil : bool; x_pc : xpc; x_chan : bool; x_panic : bool }.
Definition x_init (since : N) : cls := Cls (mst0 since) false XIdle false false.
Definition x_with (s : cls) (m : mst) (pc : xpc) : cls := Cls m (x_nil s) pc (x_chan s) (x_panic s).
(** The step to [m] stores into a nil map, or sends on a closed channel.  (Reading and deleting
    are fine with a nil map.) *)
Definition bad (s : cls) (m : mst) : Prop :=
  (x_nil s = true ∧ m_tab m ≠ m_tab (x_m s)) ∨ (x_chan s = true ∧ m_sent m ≠ m_sent (x_m s)).
(** No call starts, goes on or returns. *)
Definition no_call (m m' : mst) : Prop := m_call m' = m_call m ∧ m_log m' = m_log m.

(** What happens in a step: a step of the queue or the OS; of a call; Close is called; a step of
    it; the watcher is closed; the channel is closed and Close returns; a panic. *)
Inductive xlab := ARun | ACall | AClose | ATau | ADone | AShut | APanic.
Global Instance xlab_eq : EqDecision xlab.
Proof. solve_decision. Defined.
(** Simplification: Close is called between other calls, and no call starts before it has
    returned (it does not take the lock of the tree). *)
Inductive xstep (s : cls) : xlab → cls → Prop :=
  | x_run m : x_panic s = false → mstep (x_m s) m → no_call (x_m s) m → ¬ bad s m → xstep s ARun (x_with s m (x_pc s))
  | x_call m : x_panic s = false → x_pc s = XIdle → mstep (x_m s) m → ¬ no_call (x_m s) m → ¬ bad s m → xstep s ACall (x_with s m XIdle)
  | x_bad m : x_panic s = false → mstep (x_m s) m → (x_pc s ≠ XIdle → no_call (x_m s) m) → bad s m →
      xstep s APanic (Cls (x_m s) (x_nil s) (x_pc s) (x_chan s) true)
  (* /repo/watcher_fsevents.go:306: the watches in the order in which Go walks through the table *)
  | x_close order : x_panic s = false → x_pc s = XIdle → m_call (x_m s) = None → order ≡ₚ (map_to_list (m_tab (x_m s))).*2 →
      xstep s AClose (x_with s (x_m s) (XLoop order))
  (* /repo/watcher_fsevents.go:167, /repo/watcher_fsevents_cgo.go:156-158: nothing to stop *)
  | x_stop_nil w l o : x_panic s = false → x_pc s = XLoop (w :: l) → m_objs (x_m s) !! w = Some o → o_ref o = None →
      xstep s ATau (x_with s (x_m s) (XEv w l))
  (* /repo/watcher_fsevents_cgo.go:159-161 *)
  | x_stop w l o r x : x_panic s = false → x_pc s = XLoop (w :: l) → m_objs (x_m s) !! w = Some o → o_ref o = Some r → m_os (x_m s) !! r = Some x →
      xstep s ATau (x_with s (set_objs (set_os (x_m s) (<[r := stopped x]> (m_os (x_m s)))) (<[w := set_ref o None]> (m_objs (x_m s)))) (XUnreg w l))
  (* /repo/watcher_fsevents_cgo.go:162 *)
  | x_unreg w l o : x_panic s = false → x_pc s = XUnreg w l → m_objs (x_m s) !! w = Some o →
      xstep s ATau (x_with s (set_reg (x_m s) (delete (o_info o) (m_reg (x_m s)))) (XEv w l))
  (* /repo/watcher_fsevents.go:171-172 *)
  | x_ev w l o : x_panic s = false → x_pc s = XEv w l → m_objs (x_m s) !! w = Some o →
      xstep s ATau (x_with s (set_objs (x_m s) (<[w := set_ev o 0]> (m_objs (x_m s)))) (XRec w l))
  | x_rec w l o : x_panic s = false → x_pc s = XRec w l → m_objs (x_m s) !! w = Some o →
      xstep s ATau (x_with s (set_objs (x_m s) (<[w := set_rec o false]> (m_objs (x_m s)))) (XLoop l))
  (* /repo/watcher_fsevents.go:309-310 *)
  | x_done : x_panic s = false → x_pc s = XLoop [] →
      xstep s ADone (Cls (set_tab (x_m s) ∅) true XChan (x_chan s) false)
  (* /repo/tree_recursive.go:352-353: closing a closed channel panics *)
  | x_shut : x_panic s = false → x_pc s = XChan → x_chan s = false → xstep s AShut (Cls (x_m s) (x_nil s) XIdle true false)
  | x_shut_bad : x_panic s = false → x_pc s = XChan → x_chan s = true →
      xstep s APanic (Cls (x_m s) (x_nil s) (x_pc s) (x_chan s) true).
Inductive xsteps : cls → list xlab → cls → Prop :=
  | xs_nil s : xsteps s [] s
  | xs_snoc s tr s1 l s2 : xsteps s tr s1 → xstep s1 l s2 → xsteps s (tr ++ [l]) s2.
(** The executions of the program. *)
Definition xexec (since : N) (tr : list xlab) (s : cls) : Prop := xsteps (x_init since) tr s.
