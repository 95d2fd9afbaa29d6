(** * TriggerClean: what Close of the kqueue and FEN watcher does once the monitor goroutine
    has ended (/repo/watcher_trigger.go:125-140), and the descriptors of the kqueue itself. *)
From Verif Require Import Base Event Paths Clean Trigger.
Local Open Scope N_scope.

Section clean.
Context (T : trig).
(** One iteration of the loop (/repo/watcher_trigger.go:126-131): [p] is a key, [A] what the OS
    answers.  Go skips a key that is no longer in the map. *)
Definition close1 (s : tstate) (p : str) (A : answers) : tstate * list res :=
  match ts_path s !! p ≫= λ i, ts_heap s !! i with
  | None => (s, [])
  | Some w => match trg_unwatch T s A (tw_p w) (tw_dir w) with
              | (s, ROk) => (s, [])
              | (s, r) => (s, [r])
              end
  end.
(** The loop, with the errors: the keys in the order in which Go walks through the map.
    (An iteration adds no key.) *)
Fixpoint close_loop (s : tstate) (l : list (str * answers)) : tstate * list res :=
  match l with
  | [] => (s, [])
  | (p, A) :: l => let '(s, e) := close1 s p A in let '(s, es) := close_loop s l in (s, e ++ es)
  end.
(** The error Close returns: Stop failed; an unwatch failed; closing the kqueue or the port
    failed; "Not all watches were removed". *)
Inductive closerr := ErrStop | ErrUnwatch (r : res) | ErrPort | ErrRemaining.
(** Close (/repo/watcher_trigger.go:118-141) without the lock and the wait for the monitor,
    which are in TriggerClose.v.  [stop], [port]: t.t.Stop and t.t.Close succeed
    (/repo/watcher_kqueue.go:47-56, /repo/watcher_fen.go:41-48).  The error is the first one
    (nonil, /repo/util.go:41-48).  A kqueue or port that is closed watches nothing. *)
Definition trg_Close (s : tstate) (stop : bool) (l : list (str * answers)) (port : bool) : tstate * option closerr :=
  if stop then
    let '(s, es) := close_loop s l in
    (if port then set_reg s ∅ else s,
     head ((ErrUnwatch <$> es) ++ (if port then [] else [ErrPort]) ++ (if decide (ts_path s = ∅) then [] else [ErrRemaining])))
  else (s, Some ErrStop).
End clean.

(** ** The descriptors of a kqueue *)
(** /repo/watcher_kqueue.go:26-31: fd and pipefds. *)
Record kqfds := KF { kf_fd : nat; kf_r : nat; kf_w : nat }.
(** Init (/repo/watcher_kqueue.go:102-117) when nothing fails: kqueue and pipe; [f] gives
    the lowest free descriptor, or any free one. *)
Definition kq_Init (f : gset nat → nat) (X : gset nat) : gset nat * kqfds :=
  let a := f X in let X := {[a]} ∪ X in
  let b := f X in let X := {[b]} ∪ X in
  let c := f X in ({[c]} ∪ X, KF a b c).
(** Close (/repo/watcher_kqueue.go:54-56) *)
Definition kq_Close (k : kqfds) (X : gset nat) : gset nat := X ∖ {[kf_fd k]}.
