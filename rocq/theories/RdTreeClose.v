(** * RdTreeClose: Close of the recursive tree with the Windows watcher.

    Close of the tree (/repo/tree_recursive.go:350-354) calls Close of the watcher and then,
    whether or not that failed, closes the channel on which the watcher's loop sends
    (/repo/watcher_readdcw.go:442-453) and from which the dispatcher receives
    (/repo/tree_recursive.go:125, both made in /repo/tree.go:16-19).  A send on a closed
    channel is a panic; the dispatcher's loop ends when the channel is closed and empty.
    Simplified: Close of the tree is called once; the goroutines the dispatcher starts are
    left out; what one completion makes the loop send is sent in one step (Readdcw.v), so
    that the capacity of the channel plays no role. *)
From Verif Require Import Base Readdcw ReaddcwClose.

(** [w_s] is the watcher, where [rs_sent] lists all events sent so far; [w_called]: its Close
    has been called, [w_ret]: and has returned; [w_closed]: the channel is closed; [w_disp]:
    the dispatcher is running, [w_took]: how many events it has received; [w_panic]: the
    program has panicked. *)
Record wst := WS { w_s : cstate; w_called : bool; w_ret : bool; w_closed : bool; w_disp : bool; w_took : nat; w_panic : bool }.
Definition winit : wst := WS cs_init false false false true 0 false.
(** The step begins a call of the watcher's Close (/repo/watcher_readdcw.go:552-554). *)
Definition begins (l : clabel) : bool := match l with KClose _ _ | KCloseNop => true | _ => false end.
(** With this step, after which the watcher is [s'], Close of the watcher has returned
    (/repo/watcher_readdcw.go:556,569,572). *)
Definition returned (l : clabel) (s' : cstate) : bool :=
  match l with
  | KCloseNop | KRet _ => true
  | KPosted false => match c_closer s' with KNone => true | _ => false end
  | _ => false
  end.
(** A call of Watch or RecursiveWatch. *)
Definition watches (l : clabel) : bool :=
  match l with KStep (LReq (QWatch _ _ _) _ _ _) | KNoPort _ _ _ => true | _ => false end.
Section step.
(** Whether posting to the completion port may fail (/repo/watcher_readdcw.go:568); whether
    the tree may call Watch or RecursiveWatch of the watcher after calling its Close, which
    nothing in /repo/tree_recursive.go prevents. *)
Context (may_fail may_watch : bool).
Definition allowed (called : bool) (l : clabel) : Prop :=
  (l = KPosted false → may_fail = true) ∧ (called = true → watches l = true → may_watch = true).
Inductive wstep : wst → wst → Prop :=
  (* the watcher, its callers and the OS *)
  | w_lib s l s' c r x d k : cstep s l s' → allowed c l → (begins l = true → c = false) →
      (x = true → rs_sent (c_rs s') = rs_sent (c_rs s)) →
      wstep (WS s c r x d k false) (WS s' (c || begins l) (r || returned l s') x d k false)
  | w_crash s l s' c r d k : cstep s l s' → allowed c l → rs_sent (c_rs s') ≠ rs_sent (c_rs s) →
      wstep (WS s c r true d k false) (WS s c r true d k true)
  (* /repo/tree_recursive.go:125 *)
  | w_take s c r x k : k < length (rs_sent (c_rs s)) → wstep (WS s c r x true k false) (WS s c r x true (S k) false)
  | w_end s c r k : k = length (rs_sent (c_rs s)) → wstep (WS s c r true true k false) (WS s c r true false k false)
  (* /repo/tree_recursive.go:352 *)
  | w_close s c d k : wstep (WS s c true false d k false) (WS s c true true d k false).
End step.
